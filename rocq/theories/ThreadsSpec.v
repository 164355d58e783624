(** * ThreadsSpec: what threads sharing one EMD object may and may not rely on. *)
From Verif Require Import Threads.
Open Scope Z_scope.

Section Spec.
Context {A : Type} `{Num A}.
Variable spl : spline_oracle A.
Variable fuel : nat.
Variable c : emd_config A.

(** Somebody got this reply to this job. *)
Definition replied (w : world A) (j : job A) (r : reply A) : Prop :=
  exists t, In t (w_threads w) /\ In (j, r) (done t).

(** Some thread is to make this call. *)
Definition requested (jobs : list (list (job A))) (j : job A) : Prop := exists l, In l jobs /\ In j l.

(** The components of a call, as an array. *)
Definition components (X : list A) (o : emd_out A) : arr A := MkArr (length X) (imfs o).

(** [v] is what numpy computes for the signal of one requested call minus the sum of the components of
    another, perhaps the same. *)
Definition some_difference (jobs : list (list (job A))) (v : list A) : Prop :=
  exists X1 T1 k1 X2 T2 k2 o2,
    requested jobs (Call X1 T1 k1) /\ requested jobs (Call X2 T2 k2) /\
    emd spl fuel c X2 T2 k2 = Ok o2 /\
    broadcast2 nsub X1 (sum_rows (length X2) (imfs o2)) = Ok v.

(** A thread that has started to use the attributes of the object and has not finished. *)
Definition inside (t : thread A) : Prop :=
  match here t with Between | Found _ _ => False | _ => True end.

(** At most one thread is. *)
Definition one_inside (w : world A) : Prop :=
  forall i j t u, nth_error (w_threads w) i = Some t -> nth_error (w_threads w) j = Some u ->
    inside t -> inside u -> i = j.

(** A schedule under which no two threads ever use the attributes at the same time, as a lock
    around the calls would ensure. *)
Fixpoint taking_turns (w : world A) (schedule : list nat) : Prop :=
  one_inside w /\
  match schedule with
  | [] => True
  | i :: l => taking_turns (tick spl fuel c w i) l
  end.
End Spec.
