(** * NegSpec: what "the negative" means in double precision. *)
From Verif Require Import Num Float64 Spline.
From Flocq Require Import Core BinarySingleNaN.
From Coq Require Import List.

(** [y] is [- x]; the two zeros count as equal. *)
Definition negative (x y : f64) : Prop := y = Bopp x \/ (exists s t, x = B754_zero s /\ y = B754_zero t).
Definition negatives : list f64 -> list f64 -> Prop := Forall2 negative.

(** A routine that interpolates negated knots by negated values. *)
Definition odd64 (spl : spline_oracle f64) : Prop :=
  forall kind pts pts' t v, Forall2 (fun p q => fst q = fst p /\ negative (snd p) (snd q)) pts pts' ->
  spl kind pts t = Ok v -> exists v', spl kind pts' t = Ok v' /\ negatives v v'.
