(** * UnitSpec: vocabulary for changes of unit in the ensemble methods. *)
From Verif Require Import Emd Eemd.
From Coq Require Import QArith Qcanon.

(** A generator of which a wider noise is the stretched narrower one: NumPy draws [scale] times a
    standard normal number, and [low + (high - low)] times a number from [0, 1). *)
Definition stretches {G} (gen : generator Qc G) : Prop :=
  forall k g n, (0 < k)%Qc ->
  (forall s, normal gen g (k * s)%Qc n = (map (Qcmult k) (fst (normal gen g s n)), snd (normal gen g s n))) /\
  (forall lo hi, uniform gen g (k * lo)%Qc (k * hi)%Qc n =
     (map (Qcmult k) (fst (uniform gen g lo hi n)), snd (uniform gen g lo hi n))).

(** A standard deviation has the unit of the signal. *)
Definition has_unit (std : list Qc -> Qc) : Prop :=
  forall k v, (0 < k)%Qc -> std (map (Qcmult k) v) = (k * std v)%Qc.
