(** * MatlabThreadsSpec: what threads sharing one EMD_matlab object may rely on (C114). *)
From Verif Require Import MatlabThreads.
Open Scope Z_scope.

Section Spec.
Context {A : Type} `{Num A}.
(** A call on an object nobody else uses ([Matlab.v], [MatlabInt.v]). *)
Definition m_alone (spl : spline_oracle A) fuel c (j : m_job A) : res (list (m_row A) * Z) :=
  match j with
  | Floats X T k => m_emd spl fuel c X T k
  | Ints X T k => m_emd_int spl fuel c X T k
  end.
(** The call leaves the type of its arrays in the object, whatever it was and however the call ends. *)
Definition m_one_call (spl : spline_oracle A) fuel c (d : kept_type) (j : m_job A) : res (list (m_row A) * Z) * kept_type :=
  (m_alone spl fuel c j, kind_of j).
End Spec.
