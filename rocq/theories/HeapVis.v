(** * HeapVis: Visualisation with arrays as mutable objects (visualisation.py:15-120).

    [Vis.v] models the plots as functions on values.  Here a Visualisation holds array objects: those
    [get_imfs_and_residue] handed out when it was made.  A panel shows the numbers the arrays had
    when it was drawn (matplotlib keeps copies of the data of a line). *)
From Verif Require Export Heap Vis.

Section HeapVis.
Context {A : Type} `{Num A}.
Notation vec := (list A).

(** A two-dimensional array as [Vis.v] wants it.  The number of columns is that of the first row;
    of an array without rows it is not used: no panel can be drawn then. *)
Definition array_of (Mv : list vec) : array2 A := MkArray2 (length (nth 0 Mv [])) Mv.

(** ** Visualisation.__init__, visualisation.py:23-30.  [given] is whether an EMD object is passed;
    the object is the one whose attributes the memory holds. *)
Record vis_h := MkVisH { h_imfs : option arr; h_residue : option arr }.
Definition visualisation_h (given : bool) : M A vis_h :=
  if given then
    let* (i, r) := imfs_and_residue_h in ret (MkVisH (Some i) (Some r))
  else ret (MkVisH None None).

(** The same constructor with an object of another class (EEMD, CEEMDAN); the argument is what its
    [get_imfs_and_residue] returns or raises. *)
Definition vis_of (source : res (arr * arr)) : res vis_h :=
  let! (i, r) := source in Ok (MkVisH (Some i) (Some r)).

(** The elements of an optional array. *)
Definition look_mat (a : option arr) : M A (option (array2 A)) :=
  match a with Some a => let* Mv := load_mat a in ret (Some (array_of Mv)) | None => ret None end.
Definition look_vec (a : option arr) : M A (option vec) :=
  match a with Some a => let* v := load_vec a in ret (Some v) | None => ret None end.
(** What the arrays of the Visualisation show now. *)
Definition look (v : vis_h) : M A (vis A) :=
  let* i := look_mat (h_imfs v) in
  let* r := look_vec (h_residue v) in
  ret (MkVis i r).

(** ** Visualisation.plot_imfs, visualisation.py:45-77.  Nothing is assigned into. *)
Definition plot_imfs_h (v : vis_h) (imfs residue t : option arr) (include_residue : condition)
  : M A (list (panel A)) :=
  let* now := look v in
  let* imfs := look_mat imfs in
  let* residue := look_vec residue in
  let* t := look_vec t in
  lift (plot_imfs now imfs residue t include_residue).

(** ** Visualisation.plot_instant_freq, visualisation.py:79-120.  [hilbert], [angle], [unwrap], [pi]
    as in [Vis.v]; none of the NumPy and SciPy functions called assigns into its argument. *)
Definition plot_instant_freq_h (hilbert : vec -> vec * vec) (angle : A -> A -> A) (unwrap : vec -> vec) (pi : A)
    (v : vis_h) (t : arr) (imfs : option arr) (high : bool) (alpha : option A) : M A (list (panel A)) :=
  let* now := look v in
  let* t := load_vec t in
  let* imfs := look_mat imfs in
  lift (plot_instant_freq hilbert angle unwrap pi now t imfs high alpha).
End HeapVis.
