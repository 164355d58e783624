(** * MatlabDemo: settings of EMD_matlab used in the [Example]s. *)
From Verif Require Import Matlab.
From Coq Require Import QArith Qcanon.
From Coq Require String.
Open Scope Z_scope.
(** The constructor's values (EMD_matlab.py:45-63) with another spline kind and FIXE. *)
Definition mat_cfg (kind : String.string) (fixe fixeh : Z) : m_config Qc :=
  MkMCfg kind 2 1%Qc 500 fixe fixeh (nlit 5 100) (nlit 5 10) (nlit 5 100) 1000.
Import String.
Definition mat_linear := mat_cfg "linear"%string 0 0.
Definition mat_fixe := mat_cfg "linear"%string 2 0.
