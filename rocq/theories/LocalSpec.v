(** * LocalSpec: what it takes for a stretch of a signal to fix the result of sifting inside it (C106). *)
From Verif Require Import Emd Spec EmdProofs Kinds.
From Coq Require Import QArith Qcanon.
Open Scope Z_scope.

(** A sample above both its neighbours, a sample below both. *)
Definition peak (x : list Qc) (p : Z) : Prop :=
  (sample x (p - 1) < sample x p)%Qc /\ (sample x (p + 1) < sample x p)%Qc.
Definition trough (x : list Qc) (p : Z) : Prop :=
  (sample x p < sample x (p - 1))%Qc /\ (sample x p < sample x (p + 1))%Qc.

(** The samples number a to b are the same in both signals. *)
Definition agree (x x' : list Qc) (a b : Z) : Prop := forall j, a <= j <= b -> sample x j = sample x' j.
(** No two neighbours among them are equal. *)
Definition no_flat (x : list Qc) (a b : Z) : Prop := forall j, a <= j < b -> sample x j <> sample x (j + 1).

(** Inside the stretch from a to b, there is an [ext] at or before i and one at or after it. *)
Definition framed1 (ext : Z -> Prop) (a b i : Z) : Prop :=
  exists p q, a < p <= i /\ i <= q < b /\ ext p /\ ext q.
(** The same with a further one on each side. *)
Definition framed2 (ext : Z -> Prop) (a b i : Z) : Prop :=
  exists o p q r, a < o < p /\ p <= i <= q /\ q < r < b /\ ext o /\ ext p /\ ext q /\ ext r.
(** How many are needed for each kind of envelope; no number is enough for the others. *)
Definition framed (k : skind) (ext : Z -> Prop) (a b i : Z) : Prop :=
  match k with
  | Linear | Slinear => framed1 ext a b i
  | Pchip | CubicHermite => framed2 ext a b i
  | _ => False
  end.

(** Sample i of the result of sifting x n times depends only on the samples a to b of x: each sift leaves
    a shorter stretch a' to b', every place of which is framed by peaks and by troughs. *)
Fixpoint shielded (c : emd_config Qc) (k : skind) (n : nat) (x : list Qc) (a b i : Z) : Prop :=
  match n with
  | O => a <= i <= b
  | S n => no_flat x a b /\
      forall y, one_sift scipy_spl c (arange (length x)) x y ->
      exists a' b', a' <= b' /\
        (forall j, a' <= j <= b' -> framed k (peak x) a b j /\ framed k (trough x) a b j) /\
        shielded c k n y a' b' i
  end.

(** The components of x under FIXE = n: the first is the last of n sifts of x, the others are the
    components of what is left. *)
Inductive peels (c : emd_config Qc) (n : nat) : list Qc -> list (list Qc) -> Prop :=
| peels_none x : peels c n x []
| peels_one x l rest :
    iterates (one_sift scipy_spl c (arange (length x))) (x :: l) -> length l = n ->
    peels c n (vsub x (last l x)) rest -> peels c n x (last l x :: rest).

(** Sample i of component m depends only on the samples a to b of x: all of a shorter stretch a' to b' is
    shielded in the first component, and sample i of component m - 1 of what is left depends on that. *)
Fixpoint shielded_part (c : emd_config Qc) (k : skind) (n m : nat) (x : list Qc) (a b i : Z) : Prop :=
  match m with
  | O => shielded c k n x a b i
  | S m => exists a' b', a <= a' /\ b' <= b /\ (forall j, a' <= j <= b' -> shielded c k n x a b j) /\
      forall l, iterates (one_sift scipy_spl c (arange (length x))) (x :: l) -> length l = n ->
      shielded_part c k n m (vsub x (last l x)) a' b' i
  end.
