(** * Model of include/core/text.hpp

    A [core::Text] (text.hpp:13, [std::string]) is the list of its characters. *)

From Coq Require Import ZArith List Bool Ascii.
From Verif Require Import Base.
Import ListNotations.

(** Whether [s] begins with [p] (library: the comparison in [std::string::find], used by
    text.hpp:26). *)
Fixpoint starts_with (p s : list ascii) : bool :=
  match p, s with
  | [], _ => true
  | _, [] => false
  | x :: p', y :: s' => Ascii.eqb x y && starts_with p' s'
  end.

(** [text.find( from )] (text.hpp:26): the lowest position, counted from [pos], at which
    [from] is found; [None] is [Text::npos]. *)
Fixpoint find_from (from s : list ascii) (pos : nat) : option nat :=
  if starts_with from s then Some pos
  else match s with
       | [] => None
       | _ :: s' => find_from from s' (S pos)
       end.

(** [text.replace( pos, len, to )] (text.hpp:27) for a position in the text. *)
Definition replace_at (text : list ascii) (pos len : nat) (to : list ascii) : list ascii :=
  firstn pos text ++ to ++ skipn (pos + len) text.

(** text.hpp:24-28. *)
Definition replaced (text from to : list ascii) : list ascii :=
  match find_from from text 0 with
  | None => text
  | Some pos => replace_at text pos (length from) to
  end.

(** text.hpp:17-20: the [int] is converted to [size_t] of 64 bits; a size above the
    library's [max_size()] throws [std::length_error]. *)
Definition line (max_size size : Z) (chr : ascii) : outcome (list ascii) :=
  let n := (size mod 2 ^ 64)%Z in
  if (n <=? max_size)%Z then Ok (repeat chr (Z.to_nat n)) else Err Thrown.
