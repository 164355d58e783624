(** * StatsSpec: vocabulary for the ensemble statistics. *)
From Verif Require Import Eemd Spec.
From Coq Require Import QArith Qcanon.
Open Scope Z_scope.

(** The imfs of the trials [rs] by order: first imfs of all trials, second imfs of the trials
    that have two, and so on, up to the largest number of imfs in a trial. *)
Definition by_order {A} (rs : list (list (list A))) : list (list (list A)) :=
  map (fun k => column k rs) (seq 0 (fold_right Nat.max O (map (@length _) rs))).
(** A dictionary with the keys 0, 1, 2, ... *)
Definition numbered {X} (l : list X) : list (Z * X) := combine (zseq 0 (length l)) l.

(** [v] is the pointwise standard deviation of the rows, all of [n] samples: the square root
    of the mean squared distance from the mean. *)
Definition is_std (sqrt : Qc -> Qc) (n : nat) (rows : list (list Qc)) (v : list Qc) : Prop :=
  exists m, is_mean n rows m /\ length v = n /\
  forall i, (i < n)%nat -> exists q,
    (q * Q2Qc (inject_Z (Z.of_nat (length rows))) =
       fold_right Qcplus 0 (map (fun r => (nth i r 0 - nth i m 0) * (nth i r 0 - nth i m 0)) rows))%Qc /\
    nth i v 0%Qc = sqrt q.
(** What the square root has to satisfy for the statements about zero deviation. *)
Definition root_like (sqrt : Qc -> Qc) : Prop := forall q, (0 <= q)%Qc -> (sqrt q = 0%Qc <-> q = 0%Qc).
