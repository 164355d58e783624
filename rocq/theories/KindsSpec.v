(** * KindsSpec: vocabulary for statements about interpolating curves. *)
From Verif Require Import Spline Spec.
From Coq Require Import List QArith Qcanon.
Import ListNotations.

(** A polynomial of degree three at most, with its first two derivatives. *)
Record piece := Piece { k0 : Qc; k1 : Qc; k2 : Qc; k3 : Qc }.
Definition value (P : piece) (v : Qc) : Qc := (k0 P + k1 P * v + k2 P * v * v + k3 P * v * v * v)%Qc.
Definition slope (P : piece) (v : Qc) : Qc := (k1 P + (1 + 1) * k2 P * v + (1 + 1 + 1) * k3 P * v * v)%Qc.
Definition bend (P : piece) (v : Qc) : Qc := ((1 + 1) * k2 P + (1 + 1 + 1 + 1 + 1 + 1) * k3 P * v)%Qc.

(** One polynomial per gap between neighbouring knots, each in the distance from its left knot, each
    running through both its knots. *)
Fixpoint curve (knots : list (Qc * Qc)) (ps : list piece) : Prop :=
  match knots, ps with
  | p :: ((q :: _) as knots'), P :: ps' =>
      value P 0%Qc = snd p /\ value P (fst q - fst p)%Qc = snd q /\ curve knots' ps'
  | [_], [] => True
  | _, _ => False
  end.
(** Neighbouring polynomials agree in [f] at the knot they share. *)
Fixpoint joined (f : piece -> Qc -> Qc) (knots : list (Qc * Qc)) (ps : list piece) : Prop :=
  match knots, ps with
  | p :: ((q :: _) as knots'), P :: ((P' :: _) as ps') => f P (fst q - fst p)%Qc = f P' 0%Qc /\ joined f knots' ps'
  | _, _ => True
  end.
(** The first two polynomials have the same third derivative, and so have the last two. *)
Definition not_a_knot (ps : list piece) : Prop :=
  (forall P Q ps', ps = P :: Q :: ps' -> k3 P = k3 Q) /\
  (forall P Q ps', ps = ps' ++ [P; Q] -> k3 P = k3 Q).
(** The curve has the height [v] at the instant [u]. *)
Definition height (knots : list (Qc * Qc)) (ps : list piece) (u v : Qc) : Prop :=
  exists i p q P, nth_error knots i = Some p /\ nth_error knots (S i) = Some q /\ nth_error ps i = Some P /\
    (fst p <= u)%Qc /\ (u <= fst q)%Qc /\ v = value P (u - fst p)%Qc.

(** The kinds that never leave the values of the two knots around. *)
Definition monotone_kind (k : skind) : Prop := k = Pchip \/ k = Linear \/ k = Slinear.
(** The kinds drawn with cubic polynomials. *)
Definition smooth_kind (k : skind) : Prop := k = Akima \/ k = Cubic \/ k = Pchip \/ k = CubicHermite.

(** The knots lie on the polynomial [F]. *)
Definition on (F : piece) (knots : list (Qc * Qc)) : Prop := forall p, In p knots -> snd p = value F (fst p).
(** Neighbouring knots are [h] apart. *)
Definition evenly (h : Qc) (knots : list (Qc * Qc)) : Prop :=
  forall a p q b, knots = a ++ p :: q :: b -> (fst q - fst p = h)%Qc.
(** The slope of the straight line through two knots. *)
Definition rise (p q : Qc * Qc) : Qc := ((snd q - snd p) / (fst q - fst p))%Qc.

(** One parabola per inner knot, in the distance from that knot, through it; the first runs through the
    first knot too, the last through the last; neighbouring ones have the same value and slope halfway
    between their knots. *)
Definition arcs (knots : list (Qc * Qc)) (ps : list piece) : Prop :=
  length knots = S (S (length ps)) /\
  forall l o p q r P, knots = l ++ o :: p :: q :: r -> nth_error ps (length l) = Some P ->
    k3 P = 0%Qc /\ value P 0%Qc = snd p /\
    (l = [] -> value P (fst o - fst p)%Qc = snd o) /\ (r = [] -> value P (fst q - fst p)%Qc = snd q) /\
    (forall Q, nth_error ps (S (length l)) = Some Q ->
       value P ((fst q - fst p) / (1 + 1))%Qc = value Q (- ((fst q - fst p) / (1 + 1)))%Qc /\
       slope P ((fst q - fst p) / (1 + 1))%Qc = slope Q (- ((fst q - fst p) / (1 + 1)))%Qc).
(** The parabola in charge at the instant [u] has the height [v]. *)
Definition arc_height (knots : list (Qc * Qc)) (ps : list piece) (u v : Qc) : Prop :=
  exists l o p q r P, knots = l ++ o :: p :: q :: r /\ nth_error ps (length l) = Some P /\
    (l = [] \/ ((fst o + fst p) / (1 + 1) <= u)%Qc) /\ (r = [] \/ (u <= (fst p + fst q) / (1 + 1))%Qc) /\
    v = value P (u - fst p)%Qc.
