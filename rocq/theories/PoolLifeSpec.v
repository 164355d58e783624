(** * PoolLifeSpec: counting pools. *)
From Verif Require Import PoolLife.
From Coq Require Import Lia.
Open Scope Z_scope.

(** How many pools are open after these events: those opened minus those closed. *)
Fixpoint held (l : list event) : Z :=
  match l with
  | [] => 0
  | Opened :: l' => held l' + 1
  | Closed :: l' => held l' - 1
  end.

(** At every moment at most one pool is open, and none is closed that is not open. *)
Definition one_at_a_time (l : list event) : Prop := forall l1 l2, l = l1 ++ l2 -> 0 <= held l1 <= 1.

(** The number of runs that raised. *)
Definition failures {X} (rs : list (res X)) : Z :=
  zlen (filter (fun r => match r with Raise _ => true | Ok _ => false end) rs).
Definition all_returned {X} (rs : list (res X)) : Prop := Forall (fun r => match r with Raise _ => False | Ok _ => True end) rs.
