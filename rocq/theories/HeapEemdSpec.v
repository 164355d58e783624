(** * HeapEemdSpec: when memory shows given values. *)
From Verif Require Export HeapSpec HeapEemd.

Section HeapEemdSpec.
Context {A : Type} `{Num A}.
Notation vec := (list A).
Notation rows := (list (list A)).
Context {G : Type}.

(** ** Memory shows values *)
Definition opt_mat (m : mem A) (a : option arr) (v : option rows) : Prop :=
  match a, v with
  | Some a, Some v => contents m a = Some (Mat v) | None, None => True | _, _ => False
  end.
Definition opt_vec (m : mem A) (a : option arr) (v : option vec) : Prop :=
  match a, v with
  | Some a, Some v => contents m a = Some (Vec v) | None, None => True | _, _ => False
  end.
Definition inner_shows (m : mem A) (st : emd_state A) : Prop :=
  opt_mat m (o_imfs m) (st_imfs st) /\ opt_vec m (o_residue m) (st_residue st).
Definition entry_shows (m : mem A) (e : entry) (v : rows) : Prop :=
  match e with
  | RowList l => Forall2 (fun a x => contents m a = Some (Vec x)) l v
  | Block a => contents m a = Some (Mat v)
  end.
Definition dict_shows (m : mem A) (d : list (Z * entry)) (p : list (Z * rows)) : Prop :=
  Forall2 (fun x y => fst x = fst y /\ entry_shows m (snd x) (snd y)) d p.
(** All attributes of the EEMD object, and of the EMD object inside. *)
Definition state_shows (o : emem A G) (p : eemd_state A G (emd_state A)) : Prop :=
  inner_shows (e_mem o) (inner p) /\ e_random o = random p /\
  opt_mat (e_mem o) (e_imf o) (E_IMF p) /\ opt_vec (e_mem o) (e_res o) (e_residue p) /\
  dict_shows (e_mem o) (e_all o) (all_imfs p).

(** A new EEMD object in a memory with given buffers. *)
Definition eemd_new (h : list (cell A)) (g : G) : emem A G :=
  MkEMem (MkMem h None None) g None None [].
(** The caller assigns elements. *)
Definition e_writes (o : emem A G) (ws : list (write A)) : emem A G :=
  MkEMem (do_writes (e_mem o) ws) (e_random o) (e_imf o) (e_res o) (e_all o).
End HeapEemdSpec.
