(** * PoolSpec: orders of completion. *)
From Verif Require Import PyFacts Pool.
From Coq Require Import List Permutation.
Import ListNotations.

(** An order in which [procs] workers can complete tasks 0, ..., n - 1 handed out in turn: when the [k]-th result
    arrives, at most [k + procs] tasks have been handed out. *)
Definition feasible (procs n : nat) (f : list nat) : Prop :=
  Permutation f (seq 0 n) /\ forall k i, nth_error f k = Some i -> (i < k + procs)%nat.
(** Task [i] fails, with exception [e]; it is the first one to fail in the order [f]. *)
Definition fails_first {X} (outcome : nat -> res X) (f : list nat) (i : nat) (e : exn) : Prop :=
  outcome i = Raise e /\ exists g h, f = g ++ i :: h /\ forall j, In j g -> exists x, outcome j = Ok x.
(** How many tasks before [i] fail. *)
Definition failing {X} (outcome : nat -> res X) (j : nat) : bool := match outcome j with Raise _ => true | Ok _ => false end.
Definition failures_before {X} (outcome : nat -> res X) (i : nat) : nat := length (filter (failing outcome) (seq 0 i)).
