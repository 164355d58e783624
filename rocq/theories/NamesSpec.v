(** * NamesSpec: the names of the spline kinds, and names that differ in capitals only. *)
From Verif Require Import Spline.
From Coq Require Import List String Ascii.
Import ListNotations.

(** The names in the documentation of EMD's option [spline_kind]. *)
Definition kind_names : list (string * skind) :=
  [("akima", Akima); ("cubic", Cubic); ("pchip", Pchip); ("cubic_hermite", CubicHermite);
   ("slinear", Slinear); ("quadratic", Quadratic); ("linear", Linear)]%string.
(** The letters and their capitals, in the same order. *)
Definition letters : string := "abcdefghijklmnopqrstuvwxyz".
Definition capitals : string := "ABCDEFGHIJKLMNOPQRSTUVWXYZ".
(** [d] is the character [c] or its capital. *)
Definition written (c d : ascii) : Prop := d = c \/ exists i, String.get i letters = Some c /\ String.get i capitals = Some d.
(** [s] is the name [n], some of its letters written as capitals. *)
Fixpoint spelled (n s : string) : Prop :=
  match n, s with
  | EmptyString, EmptyString => True
  | String c n', String d s' => written c d /\ spelled n' s'
  | _, _ => False
  end.
