(** * Float64: IEEE-754 binary64 as an arithmetic of the model.

    What NumPy's default dtype computes: every operation rounds to nearest, ties to even.  The
    operations are Flocq's, with one NaN. *)
From Verif Require Import Num.
From Flocq Require Import Core BinarySingleNaN.
From Coq Require Import Reals QArith Qcanon ZArith.
Open Scope Z_scope.

#[global] Instance f64_prec : Prec_gt_0 53 := eq_refl.
#[global] Instance f64_emax : Prec_lt_emax 53 1024 := eq_refl.
Definition f64 := binary_float 53 1024.

(** Conversion of a Python integer. *)
Definition f64_ofZ (z : Z) : f64 := binary_normalize 53 1024 f64_prec f64_emax mode_NE z 0 false.

(** [ntrunc] of an infinity or NaN is undefined in NumPy; here it is 0. *)
#[global] Instance F64Num : Num f64 := {|
  nadd := Bplus mode_NE; nsub := Bminus mode_NE; nmul := Bmult mode_NE; ndiv := Bdiv mode_NE;
  nopp := Bopp; nabs := Babs;
  nltb := Bltb; nleb := Bleb; neqb := Beqb;
  nofZ := f64_ofZ; ntrunc := Btrunc
|}.

(** The number a finite double stands for (0 for infinities and NaN). *)
Definition value (x : f64) : Qc :=
  match x with
  | B754_finite s m e _ =>
      let z := if s then Z.neg m else Z.pos m in
      if 0 <=? e then Q2Qc (inject_Z (z * 2 ^ e)) else Q2Qc (z # Z.to_pos (2 ^ (- e)))
  | _ => 0%Qc
  end.
Definition finite (x : f64) : Prop := is_finite x = true.

(** Two numbers are equal or differ by at least 2^-537 (about 2.2e-162). *)
Definition tiniest : Qc := Q2Qc (1 # 2 ^ 537).
Definition apart (x y : Qc) : Prop := x = y \/ (tiniest <= x - y)%Qc \/ (tiniest <= y - x)%Qc.

(** The sum of real numbers. *)
Definition rsum (l : list R) : R := fold_right Rplus 0%R l.

(** Sample [i] of the sum of the rows, added up from the first row to the last. *)
Definition library_sum (M : list (list f64)) (i : nat) : f64 :=
  fold_left nadd (map (fun r => nth i r n0) M) n0.
(** Sample [i] of the exact sum of the rows, and of their sizes. *)
Definition real_sum (M : list (list f64)) (i : nat) : R := rsum (map (fun r => B2R (nth i r n0)) M).
Definition real_size (M : list (list f64)) (i : nat) : R := rsum (map (fun r => Rabs (B2R (nth i r n0))) M).
