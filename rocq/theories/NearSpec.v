(** * NearSpec: signals that differ little (C107). *)
From Verif Require Import Emd Spec EmdProofs Kinds.
From Coq Require Import QArith Qcanon.
Open Scope Z_scope.

Definition within (e u v : Qc) : Prop := (v - e <= u)%Qc /\ (u <= v + e)%Qc.
(** Signals of one length whose samples differ by at most e. *)
Definition close (e : Qc) (x x' : list Qc) : Prop :=
  length x = length x' /\ forall i, within e (sample x i) (sample x' i).

(** The pairs of samples whose order matters: neighbours, and the first and the last against any other. *)
Definition compared (n i j : Z) : Prop :=
  0 <= i < n /\ 0 <= j < n /\ i <> j /\ (i = j + 1 \/ j = i + 1 \/ i = 0 \/ j = 0 \/ i = n - 1 \/ j = n - 1).
(** They are in the same order in both signals. *)
Definition same_shape (x x' : list Qc) : Prop :=
  length x = length x' /\
  forall i j, compared (zlen x) i j -> ((sample x i < sample x j)%Qc <-> (sample x' i < sample x' j)%Qc).
(** They differ by more than 2 e. *)
Definition separated (e : Qc) (x : list Qc) : Prop :=
  forall i j, compared (zlen x) i j -> (sample x i + e + e < sample x j)%Qc \/ (sample x j + e + e < sample x i)%Qc.
(** No sample is within e of zero. *)
Definition away (e : Qc) (x : list Qc) : Prop :=
  forall i, 0 <= i < zlen x -> (e < sample x i)%Qc \/ (sample x i < - e)%Qc.

(** Every signal met in the course of n sifts is separated, the error doubling from one to the next. *)
Fixpoint robust (c : emd_config Qc) (n : nat) (e : Qc) (x : list Qc) : Prop :=
  match n with
  | O => True
  | S n => separated e x /\
      forall y, one_sift scipy_spl c (arange (length x)) x y -> robust c n (e + e)%Qc y
  end.
(** e doubled n times. *)
Fixpoint doubled (n : nat) (e : Qc) : Qc := match n with O => e | S n => doubled n (e + e)%Qc end.

(** The same for the first m components: what is left after one is off by its error more. *)
Fixpoint robust_parts (c : emd_config Qc) (n m : nat) (e : Qc) (x : list Qc) : Prop :=
  match m with
  | O => True
  | S m => robust c n e x /\
      forall l, iterates (one_sift scipy_spl c (arange (length x))) (x :: l) -> length l = n ->
      robust_parts c n m (e + doubled n e)%Qc (vsub x (last l x))
  end.
(** The bound for component number j. *)
Fixpoint part_error (n j : nat) (e : Qc) : Qc :=
  match j with O => doubled n e | S j => part_error n j (e + doubled n e)%Qc end.
