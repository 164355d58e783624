(** * VisSpec: vocabulary for plots. *)
From Verif Require Import Spec.
From Coq Require Import ZArith List QArith Qcanon.
Import ListNotations.

(** What is given takes precedence over what is stored. *)
Definition chosen {X} (given stored : option X) (x : X) : Prop :=
  given = Some x \/ given = None /\ stored = Some x.
(** The times at which [n] samples are drawn: those given, or 0, 1, ..., n-1. *)
Definition drawn_at (t : option (list Qc)) (n : nat) (x : list Qc) : Prop :=
  length x = n /\
  match t with
  | Some t => x = t
  | None => forall i, (i < n)%nat -> nth i x 0%Qc = Q2Qc (inject_Z (Z.of_nat i))
  end.
(** [f] are the frequencies of the phase [p] sampled every [dt]: the phase advance over
    one step in turns per unit of time; the last value is repeated. *)
Definition turns (two_pi dt : Qc) (p f : list Qc) : Prop :=
  length f = length p /\
  (forall i, (S i < length p)%nat ->
     (nth i f 0 * (two_pi * dt) = nth (S i) p 0 - nth i p 0)%Qc) /\
  nth (length p - 1) f 0%Qc = nth (length p - 2) f 0%Qc.
(** A phase that turns [f] times per unit of time, starting from [p0]. *)
Definition rotating (two_pi p0 f : Qc) (t p : list Qc) : Prop :=
  length p = length t /\ forall i, (i < length t)%nat -> nth i p 0%Qc = (p0 + two_pi * f * nth i t 0)%Qc.
Definition evenly (t : list Qc) (dt : Qc) : Prop :=
  forall i, (i < length t)%nat -> nth i t 0%Qc = (nth 0 t 0 + Q2Qc (inject_Z (Z.of_nat i)) * dt)%Qc.

(** One row drawn in a plot of frequencies: its panel shows [f] against [t]. *)
Definition smoothed (filter : Qc -> list Qc -> list Qc -> Prop) (alpha : option Qc) (x y : list Qc) : Prop :=
  match alpha with None => y = x | Some a => filter a x y end.
(** [p] is the phase measured for a row: the unwrapped angle of its analytic signal, whose real
    and imaginary parts are smoothed if a filter is asked for. *)
Definition measured (filter : Qc -> list Qc -> list Qc -> Prop) (hilbert : list Qc -> list Qc * list Qc)
    (angle : Qc -> Qc -> Qc) (unwrap : list Qc -> list Qc) (alpha : option Qc) (row p : list Qc) : Prop :=
  exists re im angles, smoothed filter alpha (fst (hilbert row)) re /\ smoothed filter alpha (snd (hilbert row)) im /\
    length angles = length row /\
    (forall i, (i < length row)%nat -> nth i angles 0%Qc = angle (nth i re 0%Qc) (nth i im 0%Qc)) /\
    p = unwrap angles.
