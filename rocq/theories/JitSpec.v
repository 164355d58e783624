(** * JitSpec: what the comparison of JitEMD with EMD refers to. *)
From Verif Require Import Py Spline Spec.
From Coq Require Import QArith Qcanon List ZArith.
From Coq Require String.
Import ListNotations.

(** Spline kinds known to both classes, and names known to neither (jitemd.py:617-640). *)
Definition supported (kind : String.string) : Prop :=
  match parse_kind kind with Some Pchip | Some CubicHermite => False | _ => True end.

(** Times that start at zero and whose smallest step is one. *)
Definition unit_times (t : list Qc) : Prop :=
  nth 0 t 0%Qc = 0%Qc
  /\ (forall i, (S i < length t)%nat -> (1 <= nth (S i) t 0 - nth i t 0)%Qc)
  /\ (exists i, (S i < length t)%nat /\ (nth (S i) t 0 - nth i t 0 = 1)%Qc).
