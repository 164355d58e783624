(** * CompactSpec: tridiagonal systems and sampled polynomials. *)
From Verif Require Import Spec.
From Coq Require Import ZArith List QArith Qcanon.
Import ListNotations.
Open Scope Z_scope.

(** [x] satisfies  a_i x_(i-1) + b_i x_i + c_i x_(i+1) = d_i  for every row; the first row has
    no a, the last no c. *)
Definition tridiagonal (a b c d x : list Qc) : Prop :=
  length x = length b /\
  forall i, 0 <= i < Z.of_nat (length b) ->
    ((if i =? 0 then 0 else sample a i * sample x (i - 1))
     + sample b i * sample x i
     + (if i =? Z.of_nat (length b) - 1 then 0 else sample c i * sample x (i + 1))
     = sample d i)%Qc.

(** The pivots of Gaussian elimination without row exchanges:
    p_0 = b_0, p_i = b_i - a_i c_(i-1) / p_(i-1). *)
Fixpoint pivot (a b c : list Qc) (i : nat) : Qc :=
  match i with
  | O => nth 0 b 0
  | S j => nth i b 0 - nth i a 0 * (nth j c 0 / pivot a b c j)
  end%Qc.
Definition regular (a b c : list Qc) : Prop := forall i, (i < length b)%nat -> pivot a b c i <> 0%Qc.

(** Strict diagonal dominance by rows, |a_i| + |c_i| < |b_i|. *)
Definition dominant (a b c : list Qc) : Prop :=
  forall i, 0 <= i < Z.of_nat (length b) ->
    exists u v, within u (sample a i) /\ within v (sample c i) /\
      (u + v < sample b i \/ u + v < - sample b i)%Qc.

(** Samples of the polynomial [p] at [t0], [t0 + h], ..., [t0 + (n-1) h]. *)
Definition sampled (p : list Qc) (t0 h : Qc) (n : nat) : list Qc :=
  map (fun i => peval p (t0 + Q2Qc (inject_Z (Z.of_nat i)) * h)%Qc) (seq 0 n).

(** The sixth-order compact filter of Visbal and Gaitonde, written as the equations its output
    [x] solves for the input [f].  Inside:
      alpha x_(i-1) + x_i + alpha x_(i+1) = sum_k a_k (f_(i+k) + f_(i-k)) / 2.
    In the three rows at either end the input is corrected by its fourth difference,
      x_i = f_i -+ (f_0 - 4 f_1 + 6 f_2 - 4 f_3 + f_4) / 16. *)
Definition fourth_difference (a b c d e : Qc) : Qc :=
  (a - Q2Qc 4 * b + Q2Qc 6 * c - Q2Qc 4 * d + e)%Qc.
Definition filtered (alpha : Qc) (f x : list Qc) : Prop :=
  let n := Z.of_nat (length f) in
  let left := (fourth_difference (sample f 0) (sample f 1) (sample f 2) (sample f 3) (sample f 4) * Q2Qc (1 # 16))%Qc in
  let right := (fourth_difference (sample f (n - 1)) (sample f (n - 2)) (sample f (n - 3)) (sample f (n - 4)) (sample f (n - 5)) * Q2Qc (1 # 16))%Qc in
  let pair i k := ((sample f (i + k) + sample f (i - k)) * Q2Qc (1 # 2))%Qc in
  length x = length f /\
  (sample x 0 = sample f 0 - left /\ sample x 1 = sample f 1 + left /\ sample x 2 = sample f 2 - left /\
   sample x (n - 1)%Z = sample f (n - 1)%Z - right /\ sample x (n - 2)%Z = sample f (n - 2)%Z + right /\
   sample x (n - 3)%Z = sample f (n - 3)%Z - right)%Qc /\
  forall i, 3 <= i < n - 3 ->
    (alpha * sample x (i - 1) + sample x i + alpha * sample x (i + 1) =
     (Q2Qc 11 + Q2Qc 10 * alpha) * Q2Qc (1 # 16) * pair i 0%Z +
     (Q2Qc 15 + Q2Qc 34 * alpha) * Q2Qc (1 # 32) * pair i 1%Z +
     (Q2Qc (-3) + Q2Qc 6 * alpha) * Q2Qc (1 # 16) * pair i 2%Z +
     (Q2Qc 1 - Q2Qc 2 * alpha) * Q2Qc (1 # 32) * pair i 3%Z)%Qc.

(** The sixth-order compact derivative of Lele, with one-sided closures in the two rows at
    either end.  Inside:
      x_(i-1)/3 + x_i + x_(i+1)/3 = 14/9 (v_(i+1) - v_(i-1)) / 2h + 1/9 (v_(i+2) - v_(i-2)) / 4h.
    The right end mirrors the left end, with the sign of [h] reversed. *)
Definition closures (V X : Z -> Qc) (h : Qc) : Prop :=
  (h * (X 0%Z + Q2Qc 5 * X 1%Z) =
     Q2Qc (-197 # 60) * V 0%Z - Q2Qc (5 # 12) * V 1%Z + Q2Qc 5 * V 2%Z - Q2Qc (5 # 3) * V 3%Z
     + Q2Qc (5 # 12) * V 4%Z - Q2Qc (1 # 20) * V 5%Z /\
   h * (Q2Qc (2 # 11) * X 0%Z + X 1%Z + Q2Qc (2 # 11) * X 2%Z) =
     Q2Qc (-20 # 33) * V 0%Z - Q2Qc (35 # 132) * V 1%Z + Q2Qc (34 # 33) * V 2%Z - Q2Qc (7 # 33) * V 3%Z
     + Q2Qc (2 # 33) * V 4%Z - Q2Qc (1 # 132) * V 5%Z)%Qc.
Definition differentiated (h : Qc) (v x : list Qc) : Prop :=
  let n := Z.of_nat (length v) in
  length x = length v /\
  closures (sample v) (sample x) h /\
  closures (fun i => sample v (n - 1 - i)) (fun i => sample x (n - 1 - i)) (- h)%Qc /\
  forall i, 2 <= i < n - 2 ->
    (h * (Q2Qc (1 # 3) * sample x (i - 1) + sample x i + Q2Qc (1 # 3) * sample x (i + 1)) =
     Q2Qc (14 # 9) * ((sample v (i + 1) - sample v (i - 1)) * Q2Qc (1 # 2)) +
     Q2Qc (1 # 9) * ((sample v (i + 2) - sample v (i - 2)) * Q2Qc (1 # 4)))%Qc.

(** The fastest oscillation the samples can carry, +c, -c, +c, ... *)
Definition sawtooth (c : Qc) (n : nat) : list Qc :=
  map (fun i => if Nat.even i then c else (- c)%Qc) (seq 0 n).
