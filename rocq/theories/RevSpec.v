(** * RevSpec: vocabulary for statements about signals read backwards. *)
From Verif Require Import Emd Spec.
From Coq Require Import QArith Qcanon.
Open Scope Z_scope.

(** A signal without flat tops: every local maximum and minimum is a single sample, and neither the
    first two nor the last two samples are equal.  Flat stretches on a slope are allowed. *)
Definition pointed (S : list Qc) : Prop :=
  (forall a b, hill S a b -> a = b) /\ (forall a b, valley S a b -> a = b) /\
  sample S 0 <> sample S 1 /\
  sample S (Z.of_nat (length S) - 2) <> sample S (Z.of_nat (length S) - 1).

(** Points (position, value) seen from the other end of an axis of length [L]. *)
Definition turned (L : Qc) (pts : list (Qc * Qc)) : list (Qc * Qc) :=
  map (fun p => (L - fst p, snd p)%Qc) (rev pts).

(** An interpolation routine that does not care about the direction of the axis. *)
Definition turns (spl : spline_oracle Qc) : Prop :=
  forall kind pts t v L, increasing (map fst pts) -> spl kind pts t = Ok v ->
  spl kind (turned L pts) (map (fun u => L - u)%Qc (rev t)) = Ok (rev v).

(** The signals obtained from [x] by sifting it again and again: subtracting the mean of the two
    envelopes (EMD.py:846-850), up to [k] times. *)
Inductive sifted (spl : spline_oracle Qc) (c : emd_config Qc) : nat -> list Qc -> list Qc -> Prop :=
| sifted_none k x : sifted spl c k x x
| sifted_once k x y z P Q : sift_step spl c (arange (length x)) x = Ok (y, P, Q) -> sifted spl c k y z ->
    sifted spl c (Datatypes.S k) x z.

(** The signal [S] minus the first [j] of the given rows. *)
Definition minus_first (j : nat) (rows : list (list Qc)) (S : list Qc) : list Qc :=
  map (fun i => nth i S 0 - total_at (firstn j rows) i)%Qc (seq 0 (length S)).
