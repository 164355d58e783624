(** * FloatSpec: images of doubles. *)
From Verif Require Import Float64 Num.
From Flocq Require Import Core BinarySingleNaN.
From Coq Require Import Reals.

(** An image of [n] rows and [m] columns, and its pixels. *)
Definition of_shape (n m : nat) (x : list (list f64)) : Prop := length x = n /\ Forall (fun r => length r = m) x.
Definition grey (x : list (list f64)) (i j : nat) : f64 := nth j (nth i x []) n0.
(** Pixel (i, j) of the exact sum of images, and of their sizes. *)
Definition grey_sum (M : list (list (list f64))) (i j : nat) : R := rsum (map (fun x => B2R (grey x i j)) M).
Definition grey_size (M : list (list (list f64))) (i j : nat) : R := rsum (map (fun x => Rabs (B2R (grey x i j))) M).
(** A slightly larger tolerance than that of [np.allclose], 1e-8. *)
Definition tol64 : R := (1001 / 10 ^ 11)%R.
(** A slightly larger one than EMD_matlab's 1e-10. *)
Definition tol10 : R := (1001 / 10 ^ 13)%R.
(** The darkest and the brightest grey level. *)
Definition range_of (n m : nat) (x : list (list f64)) (lo hi : f64) : Prop :=
  (exists i j, (i < n)%nat /\ (j < m)%nat /\ grey x i j = lo) /\
  (exists i j, (i < n)%nat /\ (j < m)%nat /\ grey x i j = hi) /\
  forall i j, (i < n)%nat -> (j < m)%nat -> (B2R lo <= B2R (grey x i j) <= B2R hi)%R.
