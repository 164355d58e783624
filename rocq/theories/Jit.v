(** * Jit: model of experimental/jitemd.py.

    Lines of jitemd.py that are the same code as in EMD.py are modelled by the same definition:
    zero crossings (161-176, 235-249), run starts and ends of plateaus (190-201), not_duplicate
    (90-100), _find_extrema_parabol (251-287), the index lists of the boundary mirroring
    (495-595), _prepare_points_parabol (374-484), end_condition (691-719).  Written out anew is
    what differs.  Numba compiles without bounds checks; the model keeps Python's IndexError. *)
From Verif Require Export Emd.
From Coq Require String.

Section Jit.
Context {A : Type} `{Num A}.
Notation vec := (list A).
Notation rows := (list (list A)).

(** The loop over plateaus, jitemd.py:203-210. *)
Fixpoint plateau_loop (d : vec) (runs : list (Z * Z)) (imax imin : list Z) : res (list Z * list Z) :=
  match runs with
  | [] => Ok (imax, imin)
  | (a, b) :: rest =>
      let! before := py_get d (a - 1) in
      let! after := py_get d b in
      let mid := round_half (a + b) in
      if nltb n0 before && nltb after n0 then plateau_loop d rest (imax ++ [mid]) imin
      else if nltb before n0 && nltb n0 after then plateau_loop d rest imax (imin ++ [mid])
      else plateau_loop d rest imax imin
  end.

(** jitemd.py:178-218: indices of maxima and minima. *)
Definition jit_extrema_idx (S : vec) : res (list Z * list Z) :=
  let d := ndiff S in
  let indmin := strict_min_idx d in
  let indmax := strict_max_idx d in
  let bad := map is0 d in
  if existsb (fun b => b) bad then
    let runs := combine (run_starts bad) (run_ends bad) in
    let runs := drop_last_run (zlen S) (drop_first_run runs) in
    let! (imax, imin) := plateau_loop d runs [] [] in
    let indmax := if 0 <? zlen imax then zsort (indmax ++ imax) else indmax in
    let indmin := if 0 <? zlen imin then zsort (indmin ++ imin) else indmin in
    Ok (indmax, indmin)
  else Ok (indmax, indmin).

(** _find_extrema_simple, jitemd.py:160-227: the positions are indices, not instants of [T]. *)
Definition jit_find_extrema_simple (T S : vec) : res (extrema_out A) :=
  let! (indmax, indmin) := jit_extrema_idx S in
  let! maxv := py_take S indmax in
  let! minv := py_take S indmin in
  Ok (MkExt (map nofZ indmax) maxv (map nofZ indmin) minv (zero_crossings S)).

(** find_extrema, jitemd.py:290-324. *)
Definition jit_find_extrema (m : detection) (T S : vec) : res (extrema_out A) :=
  match m with
  | Parabol => find_extrema_parabol T S
  | Simple => jit_find_extrema_simple T S
  | OtherDetection => Raise ValueError
  end.

(** The masks of jitemd.py:602-612: a point is dropped when the previous one has the same
    position. *)
Fixpoint dedupe_after (prev : A) (l : list (A * A)) : list (A * A) :=
  match l with
  | [] => []
  | p :: l' => if neqb (fst p) prev then dedupe_after (fst p) l' else p :: dedupe_after (fst p) l'
  end.
Definition dedupe_first (l : list (A * A)) : list (A * A) :=
  match l with [] => [] | p :: l' => p :: dedupe_after (fst p) l' end.

(** _prepare_points_simple, jitemd.py:487-614. *)
Definition jit_prepare_points_simple (nbsym : Z) (T S : vec) (e : extrema_out A)
  : res (list (A * A) * list (A * A)) :=
  let ind_min := map ntrunc (min_pos e) in
  let ind_max := map ntrunc (max_pos e) in
  let! (lmax, lmin, lsym) := left_bound nbsym S ind_max ind_min in
  let! (rmax, rmin, rsym) := right_bound nbsym S ind_max ind_min in
  let lmin := or_default lmin ind_min in
  let rmin := or_default rmin ind_min in
  let lmax := or_default lmax ind_max in
  let rmax := or_default rmax ind_max in
  let! (tlmax, lmax, tlmin, lmin) := mirror_left nbsym T ind_max ind_min lmax lmin lsym in
  let! (trmax, rmax, trmin, rmin) := mirror_right nbsym T (zlen S) ind_max ind_min rmax rmin rsym in
  let! maxe := assemble T S tlmax lmax ind_max trmax rmax in
  let! mine := assemble T S tlmin lmin ind_min trmin rmin in
  Ok (dedupe_first maxe, dedupe_first mine).

(** prepare_points, jitemd.py:327-371. *)
Definition jit_prepare_points (m : detection) (nbsym : Z) (T S : vec) (e : extrema_out A)
  : res (list (A * A) * list (A * A)) :=
  match m with
  | Parabol => prepare_points_parabol nbsym T S e
  | Simple => jit_prepare_points_simple nbsym T S e
  | OtherDetection => Raise ValueError
  end.

(** [np.linalg.inv(M).dot(v)] for a 3x3 matrix, jitemd.py:124-126: inverse by cofactors;
    LinAlgError on a zero determinant. *)
Definition invdot3 (a b c d e f g h i v1 v2 v3 : A) : res (A * A * A) :=
  let D := det3 a b c d e f g h i in
  if is0 D then Raise LinAlgError
  else
    let inv x := ndiv x D in
    let cof p q r s := nsub (nmul p s) (nmul q r) in
    let dot x y z := nadd (nadd (nmul (inv x) v1) (nmul (inv y) v2)) (nmul (inv z) v3) in
    Ok (dot (cof e f h i) (cof c b i h) (cof b c e f),
        dot (cof f d i g) (cof a c g i) (cof c a f d),
        dot (cof d e g h) (cof b a h g) (cof a b d e)).

(** Coefficients, jitemd.py:109-131; coinciding knots as in [spline3_coeffs]. *)
Definition jit_spline3_coeffs (x0 x1 x2 y0 y1 y2 : A) : res (A * A * A * A) :=
  let x1x0 := nsub x1 x0 in let x2x1 := nsub x2 x1 in
  let y1y0 := nsub y1 y0 in let y2y1 := nsub y2 y1 in
  if is0 x1x0 || is0 x2x1 then Raise LinAlgError else
  let _x1x0 := ndiv n1 x1x0 in let _x2x1 := ndiv n1 x2x1 in
  let m11 := nmul n2 _x1x0 in let m12 := _x1x0 in let m13 := n0 in
  let m21 := _x1x0 in let m22 := nmul n2 (nadd _x1x0 _x2x1) in let m23 := _x2x1 in
  let m31 := n0 in let m32 := _x2x1 in let m33 := nmul n2 _x2x1 in
  let v1 := nmul (nmul (nmul (nofZ 3) y1y0) _x1x0) _x1x0 in
  let v3 := nmul (nmul (nmul (nofZ 3) y2y1) _x2x1) _x2x1 in
  let v2 := nadd v1 v3 in
  let! (k0, k1, k2) := invdot3 m11 m12 m13 m21 m22 m23 m31 m32 m33 v1 v2 v3 in
  Ok (nsub (nmul k0 x1x0) y1y0,
      nadd (nmul (nopp k1) x1x0) y1y0,
      nsub (nmul k1 x2x1) y2y1,
      nadd (nmul (nopp k2) x2x1) y2y1).

(** cubic_spline_3pts, jitemd.py:103-142. *)
Definition jit_cubic_spline_3pts (pts : list (A * A)) (T : vec) : res (vec * vec) :=
  match pts with
  | [(x0, y0); (x1, y1); (x2, y2)] =>
      let! (a1, b1, a2, b2) := jit_spline3_coeffs x0 x1 x2 y0 y1 y2 in
      let t := filter (fun u => nleb x0 u && nleb u x2) T in
      let T1 := filter (fun u => nleb x0 u && nltb u x1) T in
      let T2 := filter (fun u => nleb x1 u && nleb u x2) T in
      let q1 := map (spline_piece x0 (nsub x1 x0) y0 y1 a1 b1) T1 in
      let q2 := map (spline_piece x1 (nsub x2 x1) y1 y2 a2 b2) T2 in
      Ok (t, q1 ++ q2)
  | _ => Raise ValueError
  end.

Variable spl : spline_oracle A.   (** SciPy's interpolation *)

(** spline_points, jitemd.py:617-640 (second component): five kinds only. *)
Definition jit_spline_points (kind : String.string) (T : vec) (ext : list (A * A)) : res vec :=
  let! t := time_window T ext in
  match parse_kind kind with
  | Some Akima => spl Akima ext t
  | Some Cubic =>
      if 3 <? zlen ext then spl Cubic ext t
      else let! (_, q) := jit_cubic_spline_3pts ext t in Ok q
  | Some Slinear => spl Slinear ext t
  | Some Quadratic => spl Quadratic ext t
  | Some Linear => spl Linear ext t
  | _ => Raise ValueError
  end.

(** extract_max_min_extrema, jitemd.py:643-688.  With fewer than three extrema both results are
    the array [[-1]], which has no second row: IndexError in spline_points. *)
Definition extract_max_min_extrema (c : emd_config A) (T S : vec) : res (list (A * A) * list (A * A)) :=
  let! e := jit_find_extrema (extrema_detection c) T S in
  if zlen (max_pos e) + zlen (min_pos e) <? 3 then Raise IndexError
  else jit_prepare_points (extrema_detection c) (nbsym c) T S e.

(** check_imf, jitemd.py:722-764.  [strict]: whether the two divisions of scalars (751, 760)
    raise ZeroDivisionError on a zero divisor, as compiled code does, or give inf or nan, as
    NumPy does.  The built-in max and min (751) are modelled by NumPy's: they differ only on
    arrays with a NaN. *)
Definition jit_check_imf (strict : bool) (c : emd_config A) (imf_new imf_old : vec) (eMax eMin : list (A * A))
  : res bool :=
  if 0 <? zlen (filter (fun p => nltb (snd p) n0) eMax) + zlen (filter (fun p => nltb n0 (snd p)) eMin)
  then Ok false
  else if nltb (nsum (map (fun x => nmul x x) imf_new)) (nlit 1 (10 ^ 10)) then Ok false
  else
    let imf_diff := vsub imf_new imf_old in
    let dsq := nsum (map (fun x => nmul x x) imf_diff) in
    let! mx := np_max imf_old in
    let! mn := np_min imf_old in
    let range := nsub mx mn in
    if strict && is0 range then Raise ZeroDivisionError
    else if negb (is0 range) && nltb (ndiv dsq range) (svar_thr c) then Ok true
    else if negb (existsb is0 imf_new)
         && nltb (nsum (map2 (fun d x => nmul (ndiv d x) (ndiv d x)) imf_diff imf_new))
                 (std_thr c) then Ok true
    else
      let en := nsum (map (fun x => nmul x x) imf_old) in
      if strict && is0 en then Raise ZeroDivisionError
      else if negb (is0 en) && nltb (ndiv dsq en) (energy_ratio_thr c) then Ok true
      else Ok false.

(** Body of one sift, jitemd.py:853-859. *)
Definition jit_sift_step (c : emd_config A) (T imf : vec) : res (vec * list (A * A) * list (A * A)) :=
  let! (eMax, eMin) := extract_max_min_extrema c T imf in
  let! max_env := jit_spline_points (spline_kind c) T eMax in
  let! min_env := jit_spline_points (spline_kind c) T eMin in
  let! sum := broadcast2 nadd max_env min_env in
  let! imf' := broadcast2 nsub imf (map (nmul nhalf) sum) in
  Ok (imf', eMax, eMin).

(** The sifting loop, jitemd.py:842-902.  The configuration holds floats; FIXE, FIXE_H,
    MAX_ITERATION and nbsym are whole numbers in the model. *)
Fixpoint jit_sift (fuel : nat) (strict : bool) (c : emd_config A) (T : vec) (n n_h extNo : Z) (imf : vec)
  : res (vec * Z * bool) :=
  match fuel with
  | O => Raise OutOfFuel
  | Datatypes.S fuel' =>
    let n := n + 1 in
    if MAX_ITERATION c <=? n then Ok (imf, extNo, false)
    else
      let! e := jit_find_extrema (extrema_detection c) T imf in
      let extNo := zlen (min_pos e) + zlen (max_pos e) in
      if 2 <? extNo then
        let imf_old := imf in
        let! (imf, eMax, eMin) := jit_sift_step c T imf in
        if negb (FIXE c =? 0) then
          if FIXE c <=? n then Ok (imf, extNo, false)
          else jit_sift fuel' strict c T n n_h extNo imf
        else if negb (FIXE_H c =? 0) then
          let! e' := jit_find_extrema (extrema_detection c) T imf in
          let extNo := zlen (max_pos e') + zlen (min_pos e') in
          let nzm := zlen (indzer e') in
          if n =? 1 then jit_sift fuel' strict c T n n_h extNo imf
          else
            let n_h := if Z.abs (extNo - nzm) <? 2 then n_h + 1 else 0 in
            if FIXE_H c <=? n_h then Ok (imf, extNo, false)
            else jit_sift fuel' strict c T n n_h extNo imf
        else
          let! e' := jit_find_extrema (extrema_detection c) T imf in
          let extNo := zlen (max_pos e') + zlen (min_pos e') in
          let nzm := zlen (indzer e') in
          let! f1 := jit_check_imf strict c imf imf_old eMax eMin in
          let f2 := Z.abs (extNo - nzm) <? 2 in
          if f1 && f2 then Ok (imf, extNo, false)
          else jit_sift fuel' strict c T n n_h extNo imf
      else Ok (imf, extNo, true)
  end.

(** The outer loop, jitemd.py:833-910. *)
Fixpoint jit_loop (fuel : nat) (strict : bool) (c : emd_config A) (S T : vec) (max_imf : Z)
    (IMF : rows) (extNo : Z) : res (rows * Z) :=
  match fuel with
  | O => Raise OutOfFuel
  | Datatypes.S fuel' =>
    let residue := vsub S (sum_rows (length S) IMF) in
    let! (imf, extNo, finished) := jit_sift (sift_fuel c) strict c T 0 0 extNo residue in
    let IMF := IMF ++ [imf] in
    let! stop := end_condition c S IMF in
    if (stop : bool) || (zlen IMF =? max_imf) then Ok (IMF, extNo)
    else if (finished : bool) then Ok (IMF, extNo)
    else jit_loop fuel' strict c S T max_imf IMF extNo
  end.

(** emd, jitemd.py:778-924: [T] is used as it is given. *)
Definition jit_emd (fuel : nat) (strict : bool) (c : emd_config A) (S T : vec) (max_imf : Z) : res rows :=
  if negb (Nat.eqb (length S) (length T)) then Raise ValueError
  else
    let! (IMF, extNo) := jit_loop fuel strict c S T max_imf [] (-1) in
    let IMF := if extNo <=? 2 then removelast IMF else IMF in
    let residue := vsub S (sum_rows (length S) IMF) in
    Ok (if negb (allclose0 residue) then IMF ++ [residue] else IMF).

(** ** The object, jitemd.py:53-81: both attributes are two-dimensional. *)
Record jit_state := MkJit { jit_imfs : option rows; jit_residue : option rows }.
Definition jit_init : jit_state := MkJit None None.

(** JitEMD.emd, jitemd.py:67-78. *)
Definition jit_call (fuel : nat) (strict : bool) (c : emd_config A) (st : jit_state) (S T : vec) (max_imf : Z)
  : res rows * jit_state :=
  match jit_emd fuel strict c S T max_imf with
  | Ok M => (Ok M, MkJit (Some (py_slice M 0 (-1))) (Some (py_from M (-1))))
  | Raise e => (Raise e, st)
  end.

(** The second result of get_imfs_and_trend: one row, or an array of rows. *)
Inductive jit_trend := TrendRow (v : vec) | TrendRows (M : rows).
(** JitEMD.get_imfs_and_trend, jitemd.py:62-65.  Before the first run [np.allclose(None, 0)] is
    a TypeError. *)
Definition jit_imfs_and_trend (st : jit_state) : res (rows * jit_trend) :=
  match jit_imfs st, jit_residue st with
  | Some i, Some r =>
      if forallb allclose0 r then
        let! t := py_get i (-1) in Ok (py_slice i 0 (-1), TrendRow t)
      else Ok (i, TrendRows r)
  | _, _ => Raise TypeError
  end.

End Jit.
Arguments jit_state A : clear implicits.
Arguments jit_trend A : clear implicits.
