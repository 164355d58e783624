(** * Demo: a concrete interpolation routine and concrete signals.

    Used only in the non-vacuity [Example]s beside the theorems and in [Conformance.v].
    [lin_spl] plays the role of SciPy's piecewise linear [interp1d] (kinds "linear" and
    "slinear", EMD.py:492-495); other kinds are served with the same values. *)
From Verif Require Import Emd.
From Coq Require Import QArith Qcanon.
From Coq Require String.
Open Scope Z_scope.

Section Lin.
Context {A : Type} `{Num A}.
Fixpoint lin_at (pts : list (A * A)) (u : A) : res A :=
  match pts with
  | (x0, y0) :: (((x1, y1) :: _) as rest) =>
      if nltb u x0 then Raise BrokenSpline
      else if nleb u x1 then
        Ok (nadd y0 (nmul (ndiv (nsub u x0) (nsub x1 x0)) (nsub y1 y0)))
      else lin_at rest u
  | _ => Raise BrokenSpline
  end.
Definition lin_spl : spline_oracle A := fun _ pts T => mapM (lin_at pts) T.

(** Default thresholds of the constructor (EMD.py:61-96), with the linear spline. *)
Definition demo_cfg (kind : String.string) (det : detection) (fixe fixeh maxit : Z) : emd_config A :=
  MkCfg (nlit 2 10) (nlit 1 1000) (nlit 2 10) (nlit 5 1000) (nlit 1 1000)
        2 kind det fixe fixeh maxit.
End Lin.

Definition q (z : Z) : Qc := Qc_ofZ z.
Definition qs (l : list Z) : list Qc := map Qc_ofZ l.
Import String.
Definition demo_default := @demo_cfg Qc _ "linear"%string Simple 0 0 1000.
Definition demo_fixe := @demo_cfg Qc _ "linear"%string Simple 3 0 1000.
Definition demo_fixeh := @demo_cfg Qc _ "linear"%string Simple 0 2 1000.
Definition demo_parabol := @demo_cfg Qc _ "linear"%string Parabol 2 0 1000.
Definition spiky_cfg := @demo_cfg Qc _ "akima"%string Simple 1 0 1000.
Definition demo_cubic := @demo_cfg Qc _ "cubic"%string Simple 2 0 1000.

(** The signal of /repo/PyEMD/tests/test_extrema.py. *)
Definition demo_S : list Qc := qs [0; -3; 1; 4; 3; 2; -2; 0; 1; 2; 1; 0; 1; 2; 5; 4; 0; -2; -1].
Definition demo_T : list Qc := qs [0; 1; 2; 4; 5; 6; 7; 9; 10; 11; 12; 13; 14; 15; 17; 18; 19; 20; 21].
