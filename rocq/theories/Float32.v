(** * Float32: the IEEE-754 formats narrower than binary64 (NumPy's float32 and float16). *)
From Verif Require Import Num Float64.
From Flocq Require Import Core BinarySingleNaN.
From Coq Require Import ZArith.
Open Scope Z_scope.

(** Arithmetic of the format with [prec] bits and exponents below [emax]; as in Float64.v every
    operation rounds to nearest, ties to even. *)
Definition BNum (prec emax : Z) (Hp : Prec_gt_0 prec) (He : Prec_lt_emax prec emax) : Num (binary_float prec emax) := {|
  nadd := Bplus mode_NE; nsub := Bminus mode_NE; nmul := Bmult mode_NE; ndiv := Bdiv mode_NE;
  nopp := Bopp; nabs := Babs;
  nltb := Bltb; nleb := Bleb; neqb := Beqb;
  nofZ := fun z => binary_normalize prec emax Hp He mode_NE z 0 false; ntrunc := Btrunc
|}.

(** Conversion between formats: [x.astype(...)] and [y[:] = x] (EMD.py:495, 810, 826, 847). *)
Definition convert {prec emax prec' emax' : Z} (Hp : Prec_gt_0 prec') (He : Prec_lt_emax prec' emax')
    (x : binary_float prec emax) : binary_float prec' emax' :=
  match x with
  | B754_zero s => B754_zero s
  | B754_infinity s => B754_infinity s
  | B754_nan => B754_nan
  | B754_finite s m e _ => binary_normalize prec' emax' Hp He mode_NE (cond_Zopp s (Z.pos m)) e s
  end.

#[global] Instance f32_prec : Prec_gt_0 24 := eq_refl.
#[global] Instance f32_emax : Prec_lt_emax 24 128 := eq_refl.
Definition f32 := binary_float 24 128.
#[global] Instance F32Num : Num f32 := BNum 24 128 f32_prec f32_emax.
#[global] Instance f16_prec : Prec_gt_0 11 := eq_refl.
#[global] Instance f16_emax : Prec_lt_emax 11 16 := eq_refl.
Definition f16 := binary_float 11 16.
#[global] Instance F16Num : Num f16 := BNum 11 16 f16_prec f16_emax.

(** To float64 and back. *)
Definition widen {prec emax} (x : binary_float prec emax) : f64 := convert f64_prec f64_emax x.
Definition narrow32 (x : f64) : f32 := convert f32_prec f32_emax x.
Definition narrow16 (x : f64) : f16 := convert f16_prec f16_emax x.

(** The number a finite value stands for (0 for infinities and NaN). *)
From Coq Require Import QArith Qcanon.
Open Scope Z_scope.
Definition bvalue {prec emax} (x : binary_float prec emax) : Qc :=
  match x with
  | B754_finite s m e _ =>
      let z := if s then Z.neg m else Z.pos m in
      if 0 <=? e then Q2Qc (inject_Z (z * 2 ^ e)) else Q2Qc (z # Z.to_pos (2 ^ (- e)))
  | _ => 0%Qc
  end.
(** Two numbers are equal or differ by at least [t]. *)
Definition apart_by (t x y : Qc) : Prop := x = y \/ (t <= x - y)%Qc \/ (t <= y - x)%Qc.
(** 2^-74 (about 5e-23) for single, 2^-12 (about 0.00024) for half precision. *)
Definition tiny32 : Qc := Q2Qc (1 # 2 ^ 74).
Definition tiny16 : Qc := Q2Qc (1 # 2 ^ 12).
(** Entry [i] of an array. *)
Definition entry {A} `{Num A} (l : list A) (i : Z) : A := nth (Z.to_nat i) l n0.
