(** * Vis: model of /repo/PyEMD/visualisation.py. *)
From Verif Require Export Py.
From Verif Require Import Compact.

(** A curve in a plot, and a panel (matplotlib's Axes).  Captions are a tag and a number instead of
    text; figure sizes and layout are not modelled. *)
Inductive caption := TimeSeries | InstantFrequency | ImfCaption (k : Z) | ResCaption | HzCaption (k : Z).
(** A Python argument used as a condition: [True] itself, another true value, a false value. *)
Inductive condition := IsTrue | Truthy | Falsy.
Definition holds (b : condition) : bool := match b with Falsy => false | _ => true end.

Section Vis.
Context {A : Type} `{Num A}.
Notation vec := (list A).

Record panel := MkPanel { title : option caption; ylabel : option caption; curves : list (vec * vec) }.
Definition empty_panel : panel := MkPanel None None [].
(** [ax.set_title], [ax.set_ylabel]. *)
Definition set_title (c : caption) (p : panel) : panel := MkPanel (Some c) (ylabel p) (curves p).
Definition set_ylabel (c : caption) (p : panel) : panel := MkPanel (title p) (Some c) (curves p).
(** [ax.plot(x, y)]: matplotlib raises ValueError unless the lengths agree. *)
Definition ax_plot (x y : vec) (p : panel) : res panel :=
  if zlen x =? zlen y then Ok (MkPanel (title p) (ylabel p) (curves p ++ [(x, y)])) else Raise ValueError.

(** [plt.subplots(n, 1)]: ValueError for n = 0, a bare Axes for n = 1, else an array. *)
Inductive axes := OneAxes (p : panel) | ArrayAxes (ps : list panel).
Definition subplots (n : nat) : res axes :=
  match n with
  | O => Raise ValueError
  | S O => Ok (OneAxes empty_panel)
  | _ => Ok (ArrayAxes (repeat empty_panel n))
  end.
(** [list(axes)]: an Axes is not iterable. *)
Definition list_of (a : axes) : res (list panel) :=
  match a with OneAxes _ => Raise TypeError | ArrayAxes ps => Ok ps end.
(** [fig.axes] *)
Definition fig_axes (a : axes) : list panel := match a with OneAxes p => [p] | ArrayAxes ps => ps end.

(** Change one panel of the list; negative indices count from the end. *)
Fixpoint change_at (k : nat) (f : panel -> res panel) (ps : list panel) : res (list panel) :=
  match ps, k with
  | [], _ => Raise IndexError
  | p :: ps', O => let! p := f p in Ok (p :: ps')
  | p :: ps', S k' => let! ps' := change_at k' f ps' in Ok (p :: ps')
  end.
Definition change (i : Z) (f : panel -> res panel) (ps : list panel) : res (list panel) :=
  let j := if i <? 0 then i + zlen ps else i in
  if j <? 0 then Raise IndexError else change_at (Z.to_nat j) f ps.

(** A two-dimensional array with its number of columns. *)
Record array2 := MkArray2 { width : nat; body : list vec }.

(** ** Visualisation.__init__, visualisation.py:23-30.
    [source] is the result of [emd_instance.get_imfs_and_residue()], if an instance is given. *)
Record vis := MkVis { v_imfs : option array2; v_residue : option vec }.
Definition visualisation (source : option (res (array2 * vec))) : res vis :=
  match source with
  | None => Ok (MkVis None None)
  | Some r => let! (i, r) := r in Ok (MkVis (Some i) (Some r))
  end.

Definition or_else {X} (x y : option X) : option X := match x with Some _ => x | None => y end.
(** ** Visualisation._check_imfs, visualisation.py:32-43 *)
Definition check_imfs (v : vis) (imfs : option array2) (residue : option vec) (include_residue : condition)
  : res (array2 * option vec) :=
  let imfs := or_else imfs (v_imfs v) in
  let residue := or_else residue (v_residue v) in
  match imfs with
  | None => Raise AttributeError
  | Some i =>
    match holds include_residue, residue with
    | true, None => Raise AttributeError
    | _, _ => Ok (i, residue)
    end
  end.

(** The loop [for num, row in enumerate(rows)], visualisation.py:66-69 and 114-117. *)
Fixpoint draw_rows (cap : Z -> caption) (t : vec) (num : Z) (rows : list vec) (ps : list panel) : res (list panel) :=
  match rows with
  | [] => Ok ps
  | row :: rows' =>
    let! ps := change num (fun p => let! p := ax_plot t row p in Ok (set_ylabel (cap (num + 1)) p)) ps in
    draw_rows cap t (num + 1) rows' ps
  end.

(** ** Visualisation.plot_imfs, visualisation.py:45-77.  The result lists the panels. *)
Definition plot_imfs (v : vis) (imfs : option array2) (residue : option vec) (t : option vec) (include_residue : condition)
  : res (list panel) :=
  let! (imfs, residue) := check_imfs v imfs residue include_residue in
  let num_rows := (length (body imfs) + match include_residue with IsTrue => 1 | _ => 0 end)%nat in
  let t := match t with Some t => t | None => map nofZ (zrange 0 (Z.of_nat (width imfs))) end in
  let! axs := subplots num_rows in
  let! axs := if Nat.eqb num_rows 1 then list_of axs else Ok (fig_axes axs) in
  let! axs := change 0 (fun p => Ok (set_title TimeSeries p)) axs in
  let! axs := draw_rows ImfCaption t 0 (body imfs) axs in
  if holds include_residue then
    match residue with
    | Some r => change (-1) (fun p => let! p := ax_plot t r p in Ok (set_ylabel ResCaption p)) axs
    | None => Raise AttributeError
    end
  else Ok axs.

(** ** Instantaneous frequency.
    SciPy's [hilbert] gives real and imaginary part of the analytic signal of a row; [angle]
    is [np.angle] of a real and an imaginary part; [unwrap] is [np.unwrap]; [pi] is [np.pi]. *)
Section Frequency.
Variable hilbert : vec -> vec * vec.
Variable angle : A -> A -> A.
Variable unwrap : vec -> vec.
Variable pi : A.

Definition alpha_ok (alpha : A) : bool := nltb (nlit (-1) 2) alpha && nltb alpha nhalf.
Definition maybe_filter (alpha : option A) (row : vec) : res vec :=
  match alpha with None => Ok row | Some a => filt6 row a end.
(** Visualisation._calc_inst_phase, visualisation.py:122-133.  The code filters all rows before
    it goes on; rows have one length, and only the length decides whether filt6 raises. *)
Definition inst_phase (alpha : option A) (row : vec) : res vec :=
  let (re, im) := hilbert row in
  let! re := maybe_filter alpha re in
  let! im := maybe_filter alpha im in
  maybe_filter alpha (unwrap (map2 angle re im)).
Definition calc_inst_phase (sig : list vec) (alpha : option A) : res (list vec) :=
  match alpha with
  | Some a => if alpha_ok a then mapM (inst_phase alpha) sig else Raise AssertionError
  | None => mapM (inst_phase alpha) sig
  end.
(** Visualisation._calc_inst_freq, visualisation.py:135-146.  [high] is whether [order] is
    anything but [False].  Division by zero (equal first two times) is not modelled faithfully. *)
Definition inst_freq (t : vec) (high : bool) (alpha : option A) (phase : vec) : res vec :=
  let! t1 := py_get t 1 in
  let! t0 := py_get t 0 in
  let dt := nsub t1 t0 in
  let! f :=
    if high then
      let! d := pade6 phase dt in Ok (map (fun x => ndiv x (nmul (nlit 2 1) pi)) d)
    else
      let f := map (fun x => ndiv x (nmul (nmul n2 pi) dt)) (ndiff phase) in
      let! last := py_get f (-1) in Ok (f ++ [last]) in
  maybe_filter alpha f.
Definition calc_inst_freq (sig : list vec) (t : vec) (high : bool) (alpha : option A) : res (list vec) :=
  let! phases := calc_inst_phase sig alpha in
  mapM (inst_freq t high alpha) phases.

(** ** Visualisation.plot_instant_freq, visualisation.py:79-120.  For an array without rows the
    code may also raise IndexError; the model says ValueError. *)
Definition plot_instant_freq (v : vis) (t : vec) (imfs : option array2) (high : bool) (alpha : option A)
  : res (list panel) :=
  if match alpha with Some a => negb (alpha_ok a) | None => false end then Raise AssertionError
  else
    let! (imfs, _) := check_imfs v imfs None Falsy in
    let num_rows := length (body imfs) in
    let! freqs := calc_inst_freq (body imfs) t high alpha in
    let! axs := subplots num_rows in
    let axs := fig_axes axs in
    let! axs := change 0 (fun p => Ok (set_title InstantFrequency p)) axs in
    draw_rows HzCaption t 0 freqs axs.
End Frequency.
End Vis.
Arguments panel A : clear implicits.
Arguments vis A : clear implicits.
Arguments array2 A : clear implicits.
