(** * OscSpec: signals that swing between two levels. *)
From Verif Require Import PyFacts QcFacts Emd Spec.
From Coq Require Import QArith Qcanon List.
Import ListNotations.
Open Scope Z_scope.

(** No sample leaves [l, h], every maximum that is reported reaches [h], every minimum that is reported reaches [l], and three
    extrema or more are reported. *)
Definition extremum (S : list Qc) (i : Z) : Prop := reported_max S i \/ reported_min S i.
Definition steady (S : list Qc) (l h : Qc) : Prop :=
  (forall x, In x S -> (l <= x)%Qc /\ (x <= h)%Qc) /\
  (forall i, reported_max S i -> sample S i = h) /\
  (forall i, reported_min S i -> sample S i = l) /\
  exists i j k, i < j < k /\ extremum S i /\ extremum S j /\ extremum S k.
(** Halfway between two levels. *)
Definition halfway (l h : Qc) : Qc := ((l + h) / (1 + 1))%Qc.
(** The signal about a level. *)
Definition about (m : Qc) (S : list Qc) : list Qc := map (fun x => (x - m)%Qc) S.
