(** * VisUnitsSpec: other units of time, other levels (C117). *)
From Verif Require Import Vis.
From Coq Require Import QArith Qcanon.

(** The clock runs c times as fast and starts at d. *)
Definition other_clock (c d : Qc) (t : list Qc) : list Qc := map (fun x => c * x + d)%Qc t.
(** The same picture with times on the other clock, and frequencies per its unit. *)
Definition redrawn (c d : Qc) (p : panel Qc) : panel Qc :=
  MkPanel (title p) (ylabel p) (map (fun xy => (other_clock c d (fst xy), map (fun f => f / c)%Qc (snd xy))) (curves p)).
Definition outcome {X Y} (f : X -> Y) (r : res X) : res Y := match r with Ok x => Ok (f x) | Raise e => Raise e end.
(** Both outcomes together. *)
Definition both {X Y Z} (f : X -> Y -> Z) (r : res X) (s : res Y) : res Z :=
  match r, s with Ok x, Ok y => Ok (f x y) | Raise e, _ => Raise e | _, Raise e => Raise e end.
(** All samples times k. *)
Definition louder (k : Qc) (I : array2 Qc) : array2 Qc := MkArray2 (width I) (map (map (Qcmult k)) (body I)).
