(** * JitThreadsSpec: what threads sharing one JitEMD object may rely on (C113). *)
From Verif Require Import JitThreads.
Open Scope Z_scope.

Section Spec.
Context {A : Type} `{Num A}.
(** One call on an object nobody else uses ([Jit.v]). *)
Definition jit_one_call (spl : spline_oracle A) fuel strict c (o : jit_state A) (j : jit_job A) : res (jit_reply A) * jit_state A :=
  match j with
  | JitDecompose X T k => let '(r, o') := jit_call spl fuel strict c o X T k in ((let! M := r in Ok (JitRows M)), o')
  | JitAsk => ((let! (M, t) := jit_imfs_and_trend o in Ok (JitPair M t)), o)
  end.
(** Some thread is to decompose something with result M. *)
Definition some_result (spl : spline_oracle A) fuel strict c (jobs : list (list (jit_job A))) (M : list (list A)) : Prop :=
  exists l X T k, In l jobs /\ In (JitDecompose X T k) l /\ jit_emd spl fuel strict c X T k = Ok M.
End Spec.
