(** * DriftSpec: an oscillation on top of a slow trend (C108). *)
From Verif Require Import Emd Spec EmdProofs Kinds KindsSpec LocalSpec.
From Coq Require Import QArith Qcanon.
Open Scope Z_scope.

(** From sample a to sample b, x is w plus the trend F. *)
Definition rides (x w : list Qc) (F : piece) (a b : Z) : Prop :=
  forall j, a <= j <= b -> sample x j = (sample w j + value F (Qc_ofZ j))%Qc.
(** There, w swings between h and - h. *)
Definition swings (w : list Qc) (h : Qc) (a b : Z) : Prop :=
  forall j, a < j < b -> (peak w j -> sample w j = h) /\ (trough w j -> sample w j = (- h)%Qc).
(** From each sample to the next, w changes by more than F does. *)
Definition steeper (w : list Qc) (F : piece) (a b : Z) : Prop :=
  forall j, a <= j < b ->
    let d := (sample w (j + 1) - sample w j)%Qc in
    let r := (value F (Qc_ofZ (j + 1)) - value F (Qc_ofZ j))%Qc in
    ((r < d /\ - r < d) \/ (d < r /\ d < - r))%Qc.
(** The trends each kind of envelope follows exactly: straight lines, parabolas for cubic_hermite. *)
Definition followed (k : skind) (F : piece) : Prop :=
  match k with
  | Linear | Slinear | Pchip => k2 F = 0%Qc /\ k3 F = 0%Qc
  | CubicHermite => k3 F = 0%Qc
  | _ => False
  end.
(** Sample i is so far inside the stretch from a to b that n sifts leave the ends of it away from i. *)
Fixpoint deep (k : skind) (n : nat) (w : list Qc) (a b i : Z) : Prop :=
  match n with
  | O => a <= i <= b
  | S n => exists a' b', a' <= b' /\
      (forall j, a' <= j <= b' -> framed k (peak w) a b j /\ framed k (trough w) a b j) /\ deep k n w a' b' i
  end.

(** The fastest oscillation: h, - h, h, ... *)
Definition flip (h : Qc) (i : Z) : Qc := if Z.even i then h else (- h)%Qc.
(** The number of samples lost at either end per sift. *)
Definition margin (k : skind) : Z := match k with Linear | Slinear => 2 | _ => 4 end.
