(** * HeapMatlabSpec: what the dictionaries returned by EMD_matlab show. *)
From Verif Require Export HeapSpec HeapMatlab.

Section HeapMatlabSpec.
Context {A : Type} `{Num A}.
(** The entries [hs], with the arrays as they are in [m], are the rows [rs]. *)
Definition entry_shows (m : mem A) (h : h_row) (r : m_row A) : Prop :=
  contents m (hr_imf h) = Some (Vec (row_imf r)) /\ hr_ext h = row_ext r /\ hr_iter h = row_iter r.
Definition entries_show (m : mem A) (hs : list h_row) (rs : list (m_row A)) : Prop :=
  Forall2 (entry_shows m) hs rs.
End HeapMatlabSpec.
