(** * NegativeSpec: vocabulary for photographic negatives. *)
From Verif Require Import Image ImageSpec.
From Coq Require Import QArith Qcanon.

(** Every grey level [v] becomes [a - v]. *)
Definition inverted (a : Qc) (x : list (list Qc)) : list (list Qc) := map (map (fun v => (a - v)%Qc)) x.
Definition answer {X Y} (f : X -> Y) (r : res X) : res Y := match r with Ok x => Ok (f x) | Raise e => Raise e end.

(** A fit through the negated values is the negated fit (BEMD), a fit through the inverted values is
    the inverted fit (EMD2D).  Radial basis functions and splines are such fits. *)
Definition odd_rbf (f : rbf Qc) : Prop :=
  forall ps vs n m, f ps (map Qcopp vs) n m = answer negative (f ps vs n m).
Definition inverting (sbs : surface Qc) : Prop :=
  forall a ps vs xi yi, length ps = length vs ->
  sbs ps (map (fun v => (a - v)%Qc) vs) xi yi = answer (inverted a) (sbs ps vs xi yi).
