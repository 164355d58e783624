(** * ChecksLevelSpec: changing the level of imfs (C115). *)
From Verif Require Import Py.
From Coq Require Import Reals.
Open Scope Z_scope.

(** All samples times c. *)
Definition amplified (c : R) (rows : list (list R)) : list (list R) := map (map (Rmult c)) rows.
(** The number of peaks of a row does not depend on its level, as with [find_peaks(data, height=0)]. *)
Definition level_free (peaks : list R -> nat) (rows : list (list R)) : Prop :=
  forall c row, (0 < c)%R -> In row rows -> peaks (map (Rmult c) row) = peaks row.
(** The dictionary says v for imf number i + 1. *)
Definition says (out : list (Z * Z)) (i : nat) (v : Z) : Prop := nth_error out i = Some (Z.of_nat i + 1, v).
