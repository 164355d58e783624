(** * TypedSpec: integers that fit a type. *)
From Verif Require Import Utils.
Open Scope Z_scope.

(** Range of an integer type. *)
Definition lowest_of (d : dtype) : Z := match kind d with Signed b => - 2 ^ (b - 1) | _ => 0 end.
Definition fits (d : dtype) (z : Z) : Prop := lowest_of d <= z <= largest_of d.
Definition is_unsigned (d : dtype) : Prop := match kind d with Unsigned _ => True | _ => False end.
Definition is_signed (d : dtype) : Prop := match kind d with Signed _ => True | _ => False end.
