(** * SymSpec: vocabulary for statements about transformed signals. *)
From Verif Require Import Emd.
From Coq Require Import QArith Qcanon.

(** An interpolation routine that commutes with [f] on the values: interpolating the transformed
    values gives the transformed interpolant.  Linear interpolation and splines do so for every
    affine [f]. *)
Definition responds (f : Qc -> Qc) (spl : spline_oracle Qc) : Prop :=
  forall kind pts t v, spl kind pts t = Ok v ->
  spl kind (map (fun p => (fst p, f (snd p))) pts) t = Ok (map f v).

(** The configuration whose two thresholds with the unit of the signal are multiplied by [r]. *)
Definition rescaled (r : Qc) (c : emd_config Qc) : emd_config Qc :=
  MkCfg (std_thr c) (svar_thr c) (energy_ratio_thr c) (r * total_power_thr c)%Qc (r * range_thr c)%Qc
        (nbsym c) (spline_kind c) (extrema_detection c) (FIXE c) (FIXE_H c) (MAX_ITERATION c).
