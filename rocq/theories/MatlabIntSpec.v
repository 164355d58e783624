(** * MatlabIntSpec: interpolation in whole numbers. *)
From Verif Require Import Spline Matlab.
From Coq Require Import QArith Qcanon Qround ZArith List.
From Coq Require String.
Import ListNotations.
Open Scope Z_scope.

(** A number without its fractional part. *)
Definition towards_zero (x : Qc) : Qc :=
  if Qclt_le_dec x 0 then (- Q2Qc (inject_Z (Qfloor (- x))))%Qc else Q2Qc (inject_Z (Qfloor x)).
Definition whole_knots (l : list (Qc * Qc)) : list (Qc * Qc) :=
  map (fun p => (towards_zero (fst p), towards_zero (snd p))) l.
Definition whole_values (r : res (list Qc)) : res (list Qc) :=
  match r with Ok v => Ok (map towards_zero v) | Raise e => Raise e end.

(** The interpolation method [k] between knots cut to whole numbers, with the values cut to whole
    numbers too (Akima's are not).  Three or fewer knots of a cubic spline are left to
    EMD_matlab's own formula, on the whole time array [T]. *)
Definition cutting (spl : spline_oracle Qc) (k : skind) (T : list Qc) : spline_oracle Qc :=
  fun _ knots t =>
    let knots := whole_knots knots in
    match k with
    | Akima => spl Akima knots t
    | Cubic => if 3 <? Z.of_nat (length knots) then whole_values (spl Cubic knots t)
               else whole_values (match cubic_spline_3pts knots T with Ok p => Ok (snd p) | Raise e => Raise e end)
    | _ => whole_values (spl k knots t)
    end.

(** The same settings with linear interpolation. *)
Import String.
Definition linearly (c : m_config Qc) : m_config Qc :=
  MkMCfg "linear"%string (m_nbsym c) (reduceScale c) (maxIteration c) (m_FIXE c) (m_FIXE_H c)
    (stop1 c) (stop2 c) (stop3 c) (m_MAX_ITERATION c).
