(** * Matlab: model of /repo/PyEMD/EMD_matlab.py (floating point signals; integer signals are in
    MatlabInt.v). *)
From Verif Require Export Emd.
From Coq Require String.

Section Matlab.
Context {A : Type} `{Num A}.
Notation vec := (list A).

(** Attributes, EMD_matlab.py:45-63. *)
Record m_config := MkMCfg {
  m_splineKind : String.string; m_nbsym : Z; reduceScale : A; maxIteration : Z;
  m_FIXE : Z; m_FIXE_H : Z; stop1 : A; stop2 : A; stop3 : A; m_MAX_ITERATION : Z
}.

(** The loop over plateaus, EMD_matlab.py:366-376: (imax, imin). *)
Fixpoint m_plateaus (d : vec) (runs : list (Z * Z)) : res (list Z * list Z) :=
  match runs with
  | [] => Ok ([], [])
  | (deb, fin) :: rest =>
    let! before := py_get d (deb - 1) in
    let! after := py_get d fin in
    let mid := round_half (fin + deb) in
    let! (imax, imin) := m_plateaus d rest in
    if nltb n0 before then
      Ok (if nltb after n0 then mid :: imax else imax, imin)
    else
      Ok (imax, if nltb n0 after then mid :: imin else imin)
  end.

(** EMD.findExtrema, EMD_matlab.py:342-388, index part. *)
Definition m_extrema_idx (s : vec) : res (list Z * list Z) :=
  let d := ndiff s in
  let indmin := strict_min_idx d in
  let indmax := strict_max_idx d in
  let bad := map is0 d in
  if existsb (fun b => b) bad then
    let runs := combine (run_starts bad) (run_ends bad) in
    let runs := drop_last_run (zlen s) (drop_first_run runs) in
    let! (imax, imin) := m_plateaus d runs in
    let indmax := match imax with [] => indmax | _ => zsort (indmax ++ imax) end in
    let indmin := match imin with [] => indmin | _ => zsort (indmin ++ imin) end in
    Ok (indmax, indmin)
  else Ok (indmax, indmin).
(** EMD.findExtrema, EMD_matlab.py:305-395. *)
Definition findExtrema (t s : vec) : res (extrema_out A) :=
  let! (indmax, indmin) := m_extrema_idx s in
  let! maxp := py_take t indmax in
  let! maxv := py_take s indmax in
  let! minp := py_take t indmin in
  let! minv := py_take s indmin in
  Ok (MkExt maxp maxv minp minv (zero_crossings s)).

(** [np.array([np.nonzero(T == t)[0] for t in pos]).flatten()], EMD_matlab.py:115-116: repeated
    instants make the array ragged (ValueError) or longer. *)
Definition m_lookup (T pos : vec) : res (list Z) :=
  let found := map (fun t => nonzero (map (fun u => neqb u t) T)) pos in
  match found with
  | [] => Ok []
  | f :: _ => if forallb (fun g => Nat.eqb (length g) (length f)) found
              then Ok (concat found) else Raise ValueError
  end.
(** EMD.preparePoints, EMD_matlab.py:94-224: from the indices on, the code of EMD.py:353-453. *)
Definition preparePoints (nbsym : Z) (T S : vec) (e : extrema_out A)
  : res (list (A * A) * list (A * A)) :=
  let! indmin := m_lookup T (min_pos e) in
  let! indmax := m_lookup T (max_pos e) in
  let! (lmax, lmin, lsym) := left_bound nbsym S indmax indmin in
  let! (rmax, rmin, rsym) := right_bound nbsym S indmax indmin in
  let lmin := or_default lmin indmin in
  let rmin := or_default rmin indmin in
  let lmax := or_default lmax indmax in
  let rmax := or_default rmax indmax in
  let! (tlmax, lmax, tlmin, lmin) := mirror_left nbsym T indmax indmin lmax lmin lsym in
  let! (trmax, rmax, trmin, rmin) := mirror_right nbsym T (zlen S) indmax indmin rmax rmin rsym in
  let! maxe := assemble T S tlmax lmax indmax trmax rmax in
  let! mine := assemble T S tlmin lmin indmin trmin rmin in
  Ok (dedupe maxe, dedupe mine).

Variable spl : spline_oracle A.

(** EMD.splinePoints, EMD_matlab.py:226-262; cubicSpline_3points (264-303) is the code of
    splines.py:5-43 on the whole time array. *)
Definition splinePoints (kind : String.string) (T : vec) (ext : list (A * A)) : res vec :=
  let! t := time_window T ext in
  match parse_kind kind with
  | None | Some Pchip | Some CubicHermite => Raise ValueError
  | Some Cubic =>
      if 3 <? zlen ext then spl Cubic ext t
      else let! (_, q) := cubic_spline_3pts ext T in Ok q
  | Some k => spl k ext t
  end.

(** EMD.extractMaxMinSpline, EMD_matlab.py:65-92; [None] is the [[-1] * 4] of line 84. *)
Definition extractMaxMinSpline (c : m_config) (T S : vec) : res (option (vec * vec)) :=
  let! e := findExtrema T S in
  if ext_no e <? 3 then Ok None
  else
    let! (maxE, minE) := preparePoints (m_nbsym c) T S e in
    let! maxs := splinePoints (m_splineKind c) T maxE in
    let! mins := splinePoints (m_splineKind c) T minE in
    Ok (Some (maxs, mins)).

(** [sx > thr] with [sx = |mean| / amp]: x/0 is inf, 0/0 is nan (EMD_matlab.py:419-423). *)
Definition above (thr m amp : A) : bool :=
  if is0 amp then negb (is0 m) else nltb thr (ndiv m amp).
(** EMD.stop_sifting, EMD_matlab.py:397-429. *)
Definition stop_sifting (c : m_config) (envMax envMin mean : vec) (extNo : Z) : res bool :=
  let! diff := broadcast2 nsub envMax envMin in
  let amp := map (fun x => ndiv (nabs x) n2) diff in
  let m := map nabs mean in
  let f1 := nltb (stop3 c)
    (ndiv (nofZ (zlen (filter (fun b => b) (map2 (above (stop1 c)) m amp)))) (nofZ (zlen amp))) in
  let f2 := existsb (fun b => b) (map2 (above (stop2 c)) m amp) in
  Ok (negb (f1 || f2) && (2 <? extNo)).

(** The sifting loop, EMD_matlab.py:520-600: (imf, n, extNo, notFinish). *)
Fixpoint m_sift (fuel : nat) (c : m_config) (T : vec) (n n_h extNo : Z) (imf mean : vec)
  : res (vec * Z * Z * bool) :=
  match fuel with
  | O => Raise OutOfFuel
  | S fuel' =>
    if m_MAX_ITERATION c <=? n then Ok (imf, n, extNo, true)
    else
      let n := n + 1 in
      let! e := findExtrema T imf in
      let extNo := ext_no e in
      if 2 <? extNo then
        let! imf := broadcast2 nsub imf (map (nmul (reduceScale c)) mean) in
        let! env := extractMaxMinSpline c T imf in
        match env with
        | None => Ok (imf, n, extNo, true)
        | Some (maxEnv, minEnv) =>
          let! sum := broadcast2 nadd maxEnv minEnv in
          let mean := map (nmul nhalf) sum in
          if maxIteration c <? n then Ok (imf, n, extNo, true)
          else if negb (m_FIXE c =? 0) then
            if m_FIXE c + 1 <=? n then Ok (imf, n, extNo, true)
            else m_sift fuel' c T n n_h extNo imf mean
          else
            let! e' := findExtrema T imf in
            let extNo := ext_no e' in
            let nzm := zlen (indzer e') in
            if negb (m_FIXE_H c =? 0) then
              if n =? 1 then m_sift fuel' c T n n_h extNo imf mean
              else
                let n_h := if 1 <? Z.abs (extNo - nzm) then 0 else n_h + 1 in
                if m_FIXE_H c <=? n_h then Ok (imf, n, extNo, true)
                else m_sift fuel' c T n n_h extNo imf mean
            else
              let! f1 := stop_sifting c maxEnv minEnv mean extNo in
              let f2 := Z.abs (extNo - nzm) <? 2 in
              if f1 && f2 then Ok (imf, n, extNo, true)
              else m_sift fuel' c T n n_h extNo imf mean
        end
      else Ok (imf, n, extNo, false)
  end.
Definition m_sift_fuel (c : m_config) : nat := Datatypes.S (Z.to_nat (m_MAX_ITERATION c)).

(** One entry of the dictionaries IMF, EXT and ITER. *)
Record m_row := MkRow { row_imf : vec; row_ext : Z; row_iter : Z }.

(** The outer loop, EMD_matlab.py:503-610; [Res] and [imf] as at its head.  The dictionaries
    have the keys 0 .. imfNo-1 and are kept as one list. *)
Fixpoint m_loop (fuel : nat) (c : m_config) (T : vec) (maxImf : Z) (Res imf : vec)
    (rows : list m_row) (extNo : Z) : res (list m_row * Z) :=
  match fuel with
  | O => Raise OutOfFuel
  | S fuel' =>
    let! Res := broadcast2 nsub Res imf in
    let! (imf, n, extNo, notFinish) :=
      m_sift (m_sift_fuel c) c T 0 0 extNo Res (map (fun _ => n0) Res) in
    let rows := rows ++ [MkRow imf extNo n] in
    if zlen rows =? maxImf - 1 then Ok (rows, extNo)
    else if (notFinish : bool) then m_loop fuel' c T maxImf Res imf rows extNo
    else Ok (rows, extNo)
  end.

(** EMD.emd, EMD_matlab.py:431-623 (a static method with an explicit [self]).  The scale
    factor is 1.0.  Result: the dictionaries as one list, and imfNo. *)
Definition m_emd (fuel : nat) (c : m_config) (S : vec) (T : option vec) (maxImf : option Z)
  : res (list m_row * Z) :=
  let T := match T with Some t => t | None => map nofZ (zseq 0 (length S)) end in
  let maxImf := match maxImf with Some k => k | None => -1 end in
  if negb (Nat.eqb (length S) (length T)) then Raise ValueError
  else
    let! (rows, extNo) := m_loop fuel c T maxImf S (map (fun _ => n0) S) [] 0 in
    let Res := vsub S (sum_rows (length S) (map row_imf rows)) in
    let rows := if nltb (nlit 1 (10 ^ 10)) (nsum (map nabs Res))
                then rows ++ [MkRow Res extNo 0] else rows in
    Ok (rows, zlen rows).

End Matlab.
Arguments m_config A : clear implicits.
Arguments m_row A : clear implicits.
Arguments MkMCfg {A}.
