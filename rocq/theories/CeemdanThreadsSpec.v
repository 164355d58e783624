(** * CeemdanThreadsSpec: what threads sharing one CEEMDAN object may rely on (C112). *)
From Verif Require Import CeemdanThreads Spec.
Open Scope Z_scope.

Section Spec.
Context {A : Type} `{Num A}.
Context {G : Type}.
(** The inner decomposition returns rows as long as the signal it is given. *)
Definition fits_any (emd_of : list A -> option (list A) -> Z -> res (list (list A))) : Prop :=
  forall X T k D, emd_of X T k = Ok D -> shaped (length X) D.
(** What the methods of the object can see between calls. *)
Definition ceemdan_object (a : holdings A G) : ceemdan_state A G := MkCSt (h_random a) (h_C a) (h_residue a).
(** One call on an object nobody else uses ([Ceemdan.v]); the order of arrival is of no account without workers. *)
Definition one_call (gen : generator A G) std emd_of (c : ceemdan_config A) (o : ceemdan_state A G) (q : request A) :
  res (list (list A)) * ceemdan_state A G :=
  ceemdan gen std emd_of (fun l => l) c o (q_S q) (q_T q) (q_max q).
End Spec.
