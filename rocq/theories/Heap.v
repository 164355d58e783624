(** * Heap: the EMD class with arrays as mutable objects (EMD.py:773-960).

    [Emd.v] models [EMD.emd] as a function on values.  Here the same statements act on arrays
    in memory, so that in-place assignment ([x[:] = ...]), views ([IMF[:-1]]), copies and the
    identity of the arrays that are stored and returned are visible.

    Simplifications: a temporary that no variable holds after its statement, and the local
    variables that hold results of the helper methods and are never assigned into (positions
    and values of extrema, envelopes), are values, not arrays in memory.  The helper methods
    ([find_extrema], [extract_max_min_spline], [check_imf], [end_condition]) are the functions
    of [Emd.v]: none of them assigns into an array it is given (their element assignments, at
    EMD.py:221-222, 515-517 and 599, have targets allocated a few lines before). *)
From Verif Require Export Emd.

Section Heap.
Context {A : Type} `{Num A}.
Notation vec := (list A).
Notation rows := (list (list A)).

(** ** Memory *)
(** The data of a one- or two-dimensional NumPy array. *)
Inductive cell := Vec (v : vec) | Mat (M : rows).
(** An array object: a buffer and the part of it the object shows ([Whole] it, its first [k]
    rows [buf[:k]], or one row [buf[i]]). *)
Inductive part := Whole | Head (k : nat) | Row (i : nat).
Record arr := MkArr { base : nat; shown : part }.

(** Memory: all buffers, and the attributes [imfs], [residue] of one EMD object
    (EMD.py:116-117). *)
Record mem := MkMem { heap : list cell; o_imfs : option arr; o_residue : option arr }.

(** What an array object shows. *)
Definition contents (m : mem) (a : arr) : option cell :=
  match nth_error (heap m) (base a), shown a with
  | Some x, Whole => Some x
  | Some (Mat M), Head k => Some (Mat (firstn k M))
  | Some (Mat M), Row i => match nth_error M i with Some v => Some (Vec v) | None => None end
  | _, _ => None
  end.

(** Computations: a result or an exception, and the memory afterwards. *)
Definition M (X : Type) : Type := mem -> res X * mem.
Definition ret {X} (x : X) : M X := fun m => (Ok x, m).
Definition lift {X} (x : res X) : M X := fun m => (x, m).
Definition mbind {X Y} (x : M X) (f : X -> M Y) : M Y :=
  fun m => let (r, m') := x m in
           match r with Ok a => f a m' | Raise e => (Raise e, m') end.
Notation "'let*' p ':=' x 'in' b" := (mbind x (fun p => b))
  (at level 200, p pattern, x at level 100, b at level 200, right associativity).

(** A new array. *)
Definition alloc (x : cell) : M arr :=
  fun m => (Ok (MkArr (length (heap m)) Whole), MkMem (heap m ++ [x]) (o_imfs m) (o_residue m)).
(** The elements of an array of the expected dimension. *)
Definition load_vec (a : arr) : M vec :=
  fun m => (match contents m a with Some (Vec v) => Ok v | _ => Raise TypeError end, m).
Definition load_mat (a : arr) : M rows :=
  fun m => (match contents m a with Some (Mat v) => Ok v | _ => Raise TypeError end, m).
(** [a.copy()] *)
Definition copy_vec (a : arr) : M arr := let* v := load_vec a in alloc (Vec v).
Definition copy_mat (a : arr) : M arr := let* v := load_mat a in alloc (Mat v).

Fixpoint set_nth {X} (l : list X) (i : nat) (x : X) : list X :=
  match l, i with
  | [], _ => []
  | _ :: l', O => x :: l'
  | y :: l', S i' => y :: set_nth l' i' x
  end.
Definition set_cell (m : mem) (l : nat) (x : cell) : mem :=
  MkMem (set_nth (heap m) l x) (o_imfs m) (o_residue m).
(** [a[:] = v] for a one-dimensional array with a buffer of its own. *)
Definition assign (a : arr) (v : vec) : M unit :=
  let* old := load_vec a in
  let* new := lift (assign_all (length old) v) in
  fun m => (Ok tt, set_cell m (base a) (Vec new)).

(** ** EMD.emd *)
Variable spl : spline_oracle A.

(** The sifting loop, EMD.py:834-899.  [imf] and [mean] are assigned into. *)
Fixpoint sift_h (fuel : nat) (c : emd_config A) (T imf mean : arr) (n n_h extNo : Z)
  : M (Z * bool) :=
  match fuel with
  | O => lift (Raise OutOfFuel)
  | S fuel' =>
    let n := n + 1 in
    if MAX_ITERATION c <=? n then ret (extNo, false)
    else
      let* t := load_vec T in
      let* x := load_vec imf in
      let* e := lift (find_extrema (extrema_detection c) t x) in
      let extNo := ext_no e in
      if 2 <? extNo then
        let* (max_env, min_env, eMax, eMin) := lift (extract_max_min_spline spl c t x) in
        let* sum := lift (broadcast2 nadd max_env min_env) in
        let* _ := assign mean (map (nmul nhalf) sum) in
        let* imf_old := copy_vec imf in
        let* x := load_vec imf in
        let* mv := load_vec mean in
        let* _ := assign imf (vsub x mv) in
        let* x := load_vec imf in
        if negb (FIXE c =? 0) then
          if FIXE c <=? n then ret (extNo, false)
          else sift_h fuel' c T imf mean n n_h extNo
        else if negb (FIXE_H c =? 0) then
          let* e' := lift (find_extrema (extrema_detection c) t x) in
          let extNo := ext_no e' in
          let nzm := zlen (indzer e') in
          if n =? 1 then sift_h fuel' c T imf mean n n_h extNo
          else
            let n_h := if Z.abs (extNo - nzm) <? 2 then n_h + 1 else 0 in
            if FIXE_H c <=? n_h then ret (extNo, false)
            else sift_h fuel' c T imf mean n n_h extNo
        else
          let* e' := lift (find_extrema (extrema_detection c) t x) in
          let extNo := ext_no e' in
          let nzm := zlen (indzer e') in
          let* old := load_vec imf_old in
          let* f1 := lift (check_imf c x old eMax eMin) in
          let f2 := Z.abs (extNo - nzm) <? 2 in
          if f1 && f2 then ret (extNo, false)
          else sift_h fuel' c T imf mean n n_h extNo
      else ret (extNo, true)
  end.

(** The outer loop, EMD.py:823-906.  [residue] is assigned into; [IMF] is a new array in
    every turn ([np.vstack]). *)
Fixpoint emd_loop_h (fuel : nat) (c : emd_config A) (S T residue : arr) (max_imf : Z)
    (IMF : arr) (extNo : Z) : M (arr * Z) :=
  match fuel with
  | O => lift (Raise OutOfFuel)
  | Datatypes.S fuel' =>
    let* s := load_vec S in
    let* Mv := load_mat IMF in
    let* _ := assign residue (vsub s (sum_rows (length s) Mv)) in
    let* imf := copy_vec residue in
    let* mean := alloc (Vec (vzeros (length s))) in
    let* (extNo, finished) := sift_h (sift_fuel c) c T imf mean 0 0 extNo in
    let* last := copy_vec imf in
    let* x := load_vec last in
    let* IMF := alloc (Mat (Mv ++ [x])) in
    let* Mv := load_mat IMF in
    let* stop := lift (end_condition c s Mv) in
    if (stop : bool) || (zlen Mv =? max_imf) then ret (IMF, extNo)
    else if (finished : bool) then ret (IMF, extNo)
    else emd_loop_h fuel' c S T residue max_imf IMF extNo
  end.

(** [x.astype(dtype)] when the dtype differs (unify_types, utils.py:72-79): [x] itself
    otherwise.  [conv] says whether it differs; the values are the same (exact numbers). *)
Definition unify (conv : bool) (a : arr) : M arr := if conv then copy_vec a else ret a.

(** [IMF[:-1]], EMD.py:909-910: a view. *)
Definition drop_last (a : arr) : M arr :=
  let* Mv := load_mat a in ret (MkArr (base a) (Head (Nat.pred (length Mv)))).

(** [self.imfs = ...], [self.residue = ...] *)
Definition set_imfs (a : arr) : M unit := fun m => (Ok tt, MkMem (heap m) (Some a) (o_residue m)).
Definition set_residue (a : arr) : M unit := fun m => (Ok tt, MkMem (heap m) (o_imfs m) (Some a)).

(** After the loop, EMD.py:908-920. *)
Definition emd_finish_h (S IMF : arr) (extNo : Z) : M arr :=
  let* IMF := if extNo <=? 2 then drop_last IMF else ret IMF in
  let* i := copy_mat IMF in
  let* _ := set_imfs i in
  let* s := load_vec S in
  let* Mv := load_mat i in
  let* r := alloc (Vec (vsub s (sum_rows (length s) Mv))) in
  let* _ := set_residue r in
  let* rv := load_vec r in
  if allclose0 rv then ret IMF
  else let* Mv := load_mat IMF in alloc (Mat (Mv ++ [rv])).

(** The time array, EMD.py:796-803: checked, replaced by a timeline if absent or not wanted,
    normalised (a new array in any case). *)
Definition emd_time_h (c : emd_config A) (S : arr) (T : option arr) : M arr :=
  let* s := load_vec S in
  let* _ := match T with
            | Some T => let* t := load_vec T in
                        if Nat.eqb (length s) (length t) then ret tt else lift (Raise ValueError)
            | None => ret tt
            end in
  let* T := match T, extrema_detection c with
            | Some T, Parabol | Some T, OtherDetection => ret T
            | _, _ => let* t := lift (timeline (length s)) in alloc (Vec t)
            end in
  let* t := load_vec T in
  let* t := lift (normalize_time t) in
  alloc (Vec t).

(** EMD.emd, EMD.py:773-920.  [convS], [convT]: whether the signal's and the time array's
    dtype differ from the common one. *)
Definition emd_h (fuel : nat) (c : emd_config A) (convS convT : bool)
    (S : arr) (T : option arr) (max_imf : Z) : M arr :=
  let* T := emd_time_h c S T in
  let* S := unify convS S in
  let* T := unify convT T in
  let* s := load_vec S in
  let* t := load_vec T in
  let* residue := copy_vec S in
  let* _ := alloc (Vec (vzeros (length s))) in
  if negb (Nat.eqb (length s) (length t)) then lift (Raise ValueError)
  else
    let* IMF := alloc (Mat []) in
    let* (IMF, extNo) := emd_loop_h fuel c S T residue max_imf IMF (-1) in
    emd_finish_h S IMF extNo.

(** EMD.get_imfs_and_residue, EMD.py:922-936. *)
Definition imfs_and_residue_h : M (arr * arr) :=
  fun m => (match o_imfs m, o_residue m with
            | Some i, Some r => Ok (i, r)
            | _, _ => Raise ValueError
            end, m).

(** EMD.get_imfs_and_trend, EMD.py:938-960. *)
Definition imfs_and_trend_h : M (arr * arr) :=
  let* (i, r) := imfs_and_residue_h in
  let* rv := load_vec r in
  if allclose0 rv then
    let* Mv := load_mat i in
    let* head := alloc (Mat (py_slice Mv 0 (-1))) in
    let* last := lift (py_get Mv (-1)) in
    let* trend := alloc (Vec last) in
    ret (head, trend)
  else ret (i, r).

End Heap.
Arguments cell A : clear implicits.
Arguments mem A : clear implicits.
Arguments M A X : clear implicits.
Notation "'let*' p ':=' x 'in' b" := (mbind x (fun p => b))
  (at level 200, p pattern, x at level 100, b at level 200, right associativity).
