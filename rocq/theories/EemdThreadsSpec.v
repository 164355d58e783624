(** * EemdThreadsSpec: what threads sharing one EEMD object may rely on (C110). *)
From Verif Require Import EemdThreads.
Open Scope Z_scope.

Section Spec.
Context {A : Type} `{Num A}.
Context {G D : Type}.
Variable gen : generator A G.
Variable dec : decomposer A D.
Variable c : eemd_config A.

(** The generator returns as many samples as asked for. *)
Definition gives_all : Prop := forall g s n,
  length (fst (normal gen g s n)) = n /\ forall lo hi, length (fst (uniform gen g lo hi n)) = n.

(** What the methods of the object can see between calls. *)
Definition object_of (a : attributes A G D) : eemd_state A G D :=
  MkESt (at_random a) (at_inner a) (at_E a) (at_residue a) (map (fun p => (fst p, cell_rows (snd p))) (entries (at_all a))).

(** One thread making these calls one after the other: the outcomes, and the object afterwards. *)
Fixpoint outcomes (o : eemd_state A G D) (l : list (call A)) : list (res (list (list A))) :=
  match l with
  | [] => []
  | j :: l => let '(r, o) := eemd gen dec c o (c_S j) (c_T j) (c_max j) in r :: outcomes o l
  end.
Fixpoint afterwards (o : eemd_state A G D) (l : list (call A)) : eemd_state A G D :=
  match l with
  | [] => o
  | j :: l => afterwards (snd (eemd gen dec c o (c_S j) (c_T j) (c_max j))) l
  end.

(** A thread in the middle of a call. *)
Definition busy (t : thread A G D) : Prop := current t <> None.
Definition one_busy (w : world A G D) : Prop := forall i j t u,
  nth_error (w_threads w) i = Some t -> nth_error (w_threads w) j = Some u -> busy t -> busy u -> i = j.
(** A schedule under which no two threads are ever in a call, as a lock around the calls would ensure. *)
Fixpoint taking_turns (w : world A G D) (schedule : list nat) : Prop :=
  one_busy w /\
  match schedule with
  | [] => True
  | i :: l => taking_turns (tick gen dec c w i) l
  end.
(** The calls thread [i] has completed, in order. *)
Definition completed (w : world A G D) (i : nat) : list (call A) :=
  map (fun x => snd (fst x)) (filter (fun x => Nat.eqb (fst (fst x)) i) (w_log w)).
Definition pending (t : thread A G D) : list (call A) :=
  match current t with Some (j, _) => j :: todo t | None => todo t end.
End Spec.
