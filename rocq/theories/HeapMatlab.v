(** * HeapMatlab: EMD_matlab's class EMD with arrays as mutable objects (EMD_matlab.py:431-623).

    [Matlab.v] models the method [emd] as a function on values.  Here the same statements act on the
    memory of [Heap.v]: [Res -= imf] (507) and [IMF[key] *= scale] (622) assign in place, every other
    statement makes a new array or only names one.

    Simplifications: as in [Heap.v], temporaries and the local variables that hold extrema and envelopes
    are values, and the helper methods are the functions of [Matlab.v].  The factor [scale] is 1.0:
    [x / scale] is a copy of [x], and [x *= scale] assigns what is there. *)
From Verif Require Export Heap Matlab.

Section HeapMatlab.
Context {A : Type} `{Num A}.
Notation vec := (list A).
Notation "'let*' p ':=' x 'in' b" := (mbind x (fun p => b))
  (at level 200, p pattern, x at level 100, b at level 200, right associativity).
Variable spl : spline_oracle A.

(** The sifting loop, EMD_matlab.py:520-600: the variables [imf] and [mean] name a new array after
    lines 536 and 547. *)
Fixpoint m_sift_h (fuel : nat) (c : m_config A) (T : arr) (n n_h extNo : Z) (imf mean : arr)
  : M A (arr * Z * Z * bool) :=
  match fuel with
  | O => lift (Raise OutOfFuel)
  | S fuel' =>
    if m_MAX_ITERATION c <=? n then ret (imf, n, extNo, true)
    else
      let n := n + 1 in
      let* t := load_vec T in
      let* x := load_vec imf in
      let* e := lift (findExtrema t x) in
      let extNo := ext_no e in
      if 2 <? extNo then
        let* imfOld := copy_vec imf in
        let* x := load_vec imf in
        let* mv := load_vec mean in
        let* y := lift (broadcast2 nsub x (map (nmul (reduceScale c)) mv)) in
        let* imf := alloc (Vec y) in
        let* y := load_vec imf in
        let* env := lift (extractMaxMinSpline spl c t y) in
        match env with
        | None => ret (imf, n, extNo, true)
        | Some (maxEnv, minEnv) =>
          let* sum := lift (broadcast2 nadd maxEnv minEnv) in
          let* mean := alloc (Vec (map (nmul nhalf) sum)) in
          if maxIteration c <? n then ret (imf, n, extNo, true)
          else if negb (m_FIXE c =? 0) then
            if m_FIXE c + 1 <=? n then ret (imf, n, extNo, true)
            else m_sift_h fuel' c T n n_h extNo imf mean
          else
            let* e' := lift (findExtrema t y) in
            let extNo := ext_no e' in
            let nzm := zlen (indzer e') in
            if negb (m_FIXE_H c =? 0) then
              if n =? 1 then m_sift_h fuel' c T n n_h extNo imf mean
              else
                let n_h := if 1 <? Z.abs (extNo - nzm) then 0 else n_h + 1 in
                if m_FIXE_H c <=? n_h then ret (imf, n, extNo, true)
                else m_sift_h fuel' c T n n_h extNo imf mean
            else
              let* mv := load_vec mean in
              let* f1 := lift (stop_sifting c maxEnv minEnv mv extNo) in
              let f2 := Z.abs (extNo - nzm) <? 2 in
              if f1 && f2 then ret (imf, n, extNo, true)
              else m_sift_h fuel' c T n n_h extNo imf mean
        end
      else ret (imf, n, extNo, false)
  end.

(** One entry of the dictionaries IMF, EXT and ITER. *)
Record h_row := MkHRow { hr_imf : arr; hr_ext : Z; hr_iter : Z }.

(** The outer loop, EMD_matlab.py:503-610. *)
Fixpoint m_loop_h (fuel : nat) (c : m_config A) (T : arr) (maxImf : Z) (Res imf : arr)
    (rows : list h_row) (extNo : Z) : M A (list h_row * Z) :=
  match fuel with
  | O => lift (Raise OutOfFuel)
  | S fuel' =>
    let* r := load_vec Res in
    let* x := load_vec imf in
    let* d := lift (broadcast2 nsub r x) in
    let* _ := assign Res d in
    let* imf := copy_vec Res in
    let* r := load_vec Res in
    let* mean := alloc (Vec (map (fun _ => n0) r)) in
    let* (imf, n, extNo, notFinish) := m_sift_h (m_sift_fuel c) c T 0 0 extNo imf mean in
    let* kept := copy_vec imf in
    let rows := rows ++ [MkHRow kept extNo n] in
    if zlen rows =? maxImf - 1 then ret (rows, extNo)
    else if (notFinish : bool) then m_loop_h fuel' c T maxImf Res imf rows extNo
    else ret (rows, extNo)
  end.

(** [[IMF[i] for i in range(imfNo)]], line 613. *)
Fixpoint load_rows (rows : list h_row) : M A (list vec) :=
  match rows with
  | [] => ret []
  | r :: rows' => let* v := load_vec (hr_imf r) in let* vs := load_rows rows' in ret (v :: vs)
  end.
(** [for key in list(IMF.keys()): IMF[key] *= scale], lines 621-622. *)
Fixpoint rescale_rows (rows : list h_row) : M A unit :=
  match rows with
  | [] => ret tt
  | r :: rows' => let* v := load_vec (hr_imf r) in let* _ := assign (hr_imf r) v in rescale_rows rows'
  end.

(** EMD.emd, EMD_matlab.py:431-623.  [convS], [convT]: whether the signal's and the time array's dtype
    differ from the common one (unify_types makes a new array then). *)
Definition m_emd_h (fuel : nat) (c : m_config A) (convS convT : bool) (S : arr) (T : option arr)
    (maxImf : option Z) : M A (list h_row * Z) :=
  let* s := load_vec S in
  let* T := match T with Some T => ret T | None => alloc (Vec (map nofZ (zseq 0 (length s)))) end in
  let maxImf := match maxImf with Some k => k | None => -1 end in
  let* S := unify convS S in
  let* T := unify convT T in
  let* Res := copy_vec S in
  let* Res := copy_vec Res in
  let* scaledS := copy_vec S in
  let* s := load_vec S in
  let* imf := alloc (Vec (map (fun _ => n0) s)) in
  let* imfOld := copy_vec Res in
  let* t := load_vec T in
  if negb (Nat.eqb (length s) (length t)) then lift (Raise ValueError)
  else
    let* (rows, extNo) := m_loop_h fuel c T maxImf Res imf [] 0 in
    let* s := load_vec scaledS in
    let* vs := load_rows rows in
    let* Res := alloc (Vec (vsub s (sum_rows (length s) vs))) in
    let* r := load_vec Res in
    let rows := if nltb (nlit 1 (10 ^ 10)) (nsum (map nabs r)) then rows ++ [MkHRow Res extNo 0] else rows in
    let* _ := rescale_rows rows in
    ret (rows, zlen rows).
End HeapMatlab.
