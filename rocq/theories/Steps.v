(** * Steps: programs of single steps on a shared state, and threads that run them.

    The general part of [EemdThreads.v], for any object: not a model of a particular function of /repo, but of several
    threads calling one method of one object (here CEEMDAN.py:199-276, [CeemdanThreads.v]).  A step of a thread is one
    access to the state; a schedule says which thread makes the next one. *)
From Verif Require Export Py.

Section Steps.
Variable St : Type.

(** What a thread still has to do: nothing, with this outcome, or one step on the state and then, depending on what it
    saw, the rest. *)
Inductive steps (R : Type) :=
| Done (r : res R)
| Step (change : St -> St) (rest : St -> steps R).
Arguments Done {R}. Arguments Step {R}.
Fixpoint after {R R'} (p : steps R) (k : R -> steps R') : steps R' :=
  match p with
  | Done (Ok r) => k r
  | Done (Raise e) => Done (Raise e)
  | Step w f => Step w (fun a => after (f a) k)
  end.
(** Read something; write something; do something that may raise. *)
Definition look {R} (f : St -> R) : steps R := Step (fun a => a) (fun a => Done (Ok (f a))).
Definition write (w : St -> St) : steps unit := Step w (fun _ => Done (Ok tt)).
Definition try {R} (f : St -> res R * St) : steps R := Step (fun a => snd (f a)) (fun a => Done (fst (f a))).

Context {J R : Type}.
(** The method. *)
Variable method : J -> steps R.

(** A worker: the calls it is still to make, and the rest of the one it is in. *)
Record worker := MkWorker { ahead : list J; inside : option (J * steps R) }.
(** The object, the threads, and the calls that returned or raised, in that order, with the number of the thread. *)
Record office := MkOffice { o_state : St; o_workers : list worker; o_log : list (nat * J * res R) }.

Fixpoint swap_in {X} (l : list X) (i : nat) (x : X) : list X :=
  match l, i with
  | [], _ => []
  | _ :: l', O => x :: l'
  | y :: l', Datatypes.S i' => y :: swap_in l' i' x
  end.
(** Thread [i] goes on with [p], or is done with the call. *)
Definition proceed (w : office) (i : nat) (l : list J) (a : St) (j : J) (p : steps R) : office :=
  match p with
  | Done r => MkOffice a (swap_in (o_workers w) i (MkWorker l None)) (o_log w ++ [(i, j, r)])
  | Step _ _ => MkOffice a (swap_in (o_workers w) i (MkWorker l (Some (j, p)))) (o_log w)
  end.
Definition turn (w : office) (i : nat) : office :=
  match nth_error (o_workers w) i with
  | None => w
  | Some t =>
      match inside t with
      | None =>
          match ahead t with
          | [] => w
          | j :: l => proceed w i l (o_state w) j (method j)
          end
      | Some (j, Done r) => proceed w i (ahead t) (o_state w) j (Done r)      (* cannot happen *)
      | Some (j, Step f k) => proceed w i (ahead t) (f (o_state w)) j (k (o_state w))
      end
  end.
Definition run_all (w : office) (schedule : list nat) : office := fold_left turn schedule w.
(** An object and threads that have not started. *)
Definition opening (a : St) (jobs : list (list J)) : office := MkOffice a (map (fun l => MkWorker l None) jobs) [].

(** ** Vocabulary of the theorems *)
(** A thread in the middle of a call. *)
Definition engaged (t : worker) : Prop := inside t <> None.
Definition one_engaged (w : office) : Prop := forall i j t u,
  nth_error (o_workers w) i = Some t -> nth_error (o_workers w) j = Some u -> engaged t -> engaged u -> i = j.
(** A schedule under which no two threads are ever in a call, as a lock around the calls would ensure. *)
Fixpoint in_turns (w : office) (schedule : list nat) : Prop :=
  one_engaged w /\
  match schedule with
  | [] => True
  | i :: l => in_turns (turn w i) l
  end.
(** The calls thread [i] has completed, in order, and those it has not. *)
Definition finished_by (w : office) (i : nat) : list J :=
  map (fun x => snd (fst x)) (filter (fun x => Nat.eqb (fst (fst x)) i) (o_log w)).
Definition unfinished (t : worker) : list J :=
  match inside t with Some (j, _) => j :: ahead t | None => ahead t end.

(** One thread making calls one after the other on an object that is in state [o] for those who call it: the outcomes,
    and the object afterwards. *)
Context {O : Type}.
Variable effect : O -> J -> res R * O.
Fixpoint results_in_row (o : O) (l : list J) : list (res R) :=
  match l with
  | [] => []
  | j :: l => let '(r, o) := effect o j in r :: results_in_row o l
  end.
Fixpoint object_after (o : O) (l : list J) : O :=
  match l with
  | [] => o
  | j :: l => object_after (snd (effect o j)) l
  end.
End Steps.
Arguments Done {St R}. Arguments Step {St R}. Arguments after {St R R'}. Arguments look {St R}. Arguments write {St}. Arguments try {St R}.
Arguments worker St J R : clear implicits. Arguments office St J R : clear implicits.
Arguments MkWorker {St J R}. Arguments ahead {St J R}. Arguments inside {St J R}.
Arguments MkOffice {St J R}. Arguments o_state {St J R}. Arguments o_workers {St J R}. Arguments o_log {St J R}.
Arguments proceed {St J R}. Arguments turn {St J R}. Arguments run_all {St J R}. Arguments opening {St J R}.
Arguments engaged {St J R}. Arguments one_engaged {St J R}. Arguments in_turns {St J R}. Arguments finished_by {St J R}. Arguments unfinished {St J R}.
Arguments results_in_row {J R O}. Arguments object_after {J R O}.
