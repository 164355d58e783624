(** * HeapCeemdanSpec: when memory shows the attributes of a CEEMDAN object. *)
From Verif Require Export HeapEemdSpec HeapCeemdan.

Section HeapCeemdanSpec.
Context {A : Type} `{Num A}.
Context {G : Type}.

Definition c_shows (o : cmem A G) (p : ceemdan_state A G) : Prop :=
  h_random o = c_random p /\ opt_mat (c_mem o) (h_C_IMF o) (C_IMF p) /\
  opt_vec (c_mem o) (h_res o) (c_residue p).
(** A new CEEMDAN object in a memory with given buffers. *)
Definition ceemdan_new (h : list (cell A)) (g : G) : cmem A G := MkCMem (MkMem h None None) g None None.
(** The caller assigns elements. *)
Definition c_writes (o : cmem A G) (ws : list (write A)) : cmem A G :=
  MkCMem (do_writes (c_mem o) ws) (h_random o) (h_C_IMF o) (h_res o).
End HeapCeemdanSpec.
