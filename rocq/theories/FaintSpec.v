(** * FaintSpec: noise of limited size (C109). *)
From Verif Require Import Eemd Spec EemdSpec.
From Coq Require Import QArith Qcanon.
Open Scope Z_scope.

(** What NumPy documents of [uniform]: the samples lie between the two bounds. *)
Definition confined {G} (gen : generator Qc G) : Prop :=
  forall g lo hi n v, (lo <= hi)%Qc -> In v (fst (uniform gen g lo hi n)) -> (lo <= v)%Qc /\ (v <= hi)%Qc.
(** Noise vectors of n samples of this kind and scale stay within e of zero. *)
Definition faint {G} (gen : generator Qc G) (kind : noise_kinds) (scale : Qc) (n : nat) (e : Qc) : Prop :=
  forall g v g', draws gen kind scale n g v g' -> forall x, In x v -> (- e <= x)%Qc /\ (x <= e)%Qc.
