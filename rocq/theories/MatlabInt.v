(** * MatlabInt: EMD_matlab.py when the signal and the times are integer arrays (int64).

    [emd] sets [self.DTYPE] to the type of the signal (EMD_matlab.py:470-471).  With integers the
    knots of the envelopes and the envelopes themselves are converted to integers, truncating
    toward zero; the residue and the proto-IMFs stay floating point, because [S / 1.0] is
    (EMD_matlab.py:473-475).  Simplifications: no overflow in int64, and conversion of NaN is the
    [ntrunc] of the arithmetic. *)
From Verif Require Export Matlab.
From Coq Require String.
Open Scope Z_scope.

Section MatlabInt.
Context {A : Type} `{Num A}.
Notation vec := (list A).
Variable spl : spline_oracle A.

(** [x.astype(np.int64)], as a number of the arithmetic. *)
Definition to_int (x : A) : A := nofZ (ntrunc x).
(** [np.array([t, z], dtype=self.DTYPE)], EMD_matlab.py:217-218. *)
Definition int_points (l : list (A * A)) : list (A * A) :=
  map (fun p => (to_int (fst p), to_int (snd p))) l.

(** EMD.preparePoints, EMD_matlab.py:94-224. *)
Definition preparePoints_int (nbsym : Z) (T S : vec) (e : extrema_out A)
  : res (list (A * A) * list (A * A)) :=
  let! indmin := m_lookup T (min_pos e) in
  let! indmax := m_lookup T (max_pos e) in
  let! (lmax, lmin, lsym) := left_bound nbsym S indmax indmin in
  let! (rmax, rmin, rsym) := right_bound nbsym S indmax indmin in
  let lmin := or_default lmin indmin in
  let rmin := or_default rmin indmin in
  let lmax := or_default lmax indmax in
  let rmax := or_default rmax indmax in
  let! (tlmax, lmax, tlmin, lmin) := mirror_left nbsym T indmax indmin lmax lmin lsym in
  let! (trmax, rmax, trmin, rmin) := mirror_right nbsym T (zlen S) indmax indmin rmax rmin rsym in
  let! maxe := assemble T S tlmax lmax indmax trmax rmax in
  let! mine := assemble T S tlmin lmin indmin trmin rmin in
  Ok (dedupe (int_points maxe), dedupe (int_points mine)).

(** EMD.splinePoints and cubicSpline_3points, EMD_matlab.py:226-303: only the akima branch (line
    250) returns the values as they are. *)
Definition splinePoints_int (kind : String.string) (T : vec) (ext : list (A * A)) : res vec :=
  let! t := time_window T ext in
  match parse_kind kind with
  | None | Some Pchip | Some CubicHermite => Raise ValueError
  | Some Akima => spl Akima ext t
  | Some Cubic =>
      if 3 <? zlen ext then let! v := spl Cubic ext t in Ok (map to_int v)
      else let! (_, q) := cubic_spline_3pts ext T in Ok (map to_int q)
  | Some k => let! v := spl k ext t in Ok (map to_int v)
  end.

(** EMD.extractMaxMinSpline, EMD_matlab.py:65-92. *)
Definition extractMaxMinSpline_int (c : m_config A) (T S : vec) : res (option (vec * vec)) :=
  let! e := findExtrema T S in
  if ext_no e <? 3 then Ok None
  else
    let! (maxE, minE) := preparePoints_int (m_nbsym c) T S e in
    let! maxs := splinePoints_int (m_splineKind c) T maxE in
    let! mins := splinePoints_int (m_splineKind c) T minE in
    Ok (Some (maxs, mins)).

(** The sifting loop, EMD_matlab.py:520-600. *)
Fixpoint m_sift_int (fuel : nat) (c : m_config A) (T : vec) (n n_h extNo : Z) (imf mean : vec)
  : res (vec * Z * Z * bool) :=
  match fuel with
  | O => Raise OutOfFuel
  | S fuel' =>
    if m_MAX_ITERATION c <=? n then Ok (imf, n, extNo, true)
    else
      let n := n + 1 in
      let! e := findExtrema T imf in
      let extNo := ext_no e in
      if 2 <? extNo then
        let! imf := broadcast2 nsub imf (map (nmul (reduceScale c)) mean) in
        let! env := extractMaxMinSpline_int c T imf in
        match env with
        | None => Ok (imf, n, extNo, true)
        | Some (maxEnv, minEnv) =>
          let! sum := broadcast2 nadd maxEnv minEnv in
          let mean := map (nmul nhalf) sum in
          if maxIteration c <? n then Ok (imf, n, extNo, true)
          else if negb (m_FIXE c =? 0) then
            if m_FIXE c + 1 <=? n then Ok (imf, n, extNo, true)
            else m_sift_int fuel' c T n n_h extNo imf mean
          else
            let! e' := findExtrema T imf in
            let extNo := ext_no e' in
            let nzm := zlen (indzer e') in
            if negb (m_FIXE_H c =? 0) then
              if n =? 1 then m_sift_int fuel' c T n n_h extNo imf mean
              else
                let n_h := if 1 <? Z.abs (extNo - nzm) then 0 else n_h + 1 in
                if m_FIXE_H c <=? n_h then Ok (imf, n, extNo, true)
                else m_sift_int fuel' c T n n_h extNo imf mean
            else
              let! f1 := stop_sifting c maxEnv minEnv mean extNo in
              let f2 := Z.abs (extNo - nzm) <? 2 in
              if f1 && f2 then Ok (imf, n, extNo, true)
              else m_sift_int fuel' c T n n_h extNo imf mean
        end
      else Ok (imf, n, extNo, false)
  end.

(** The outer loop, EMD_matlab.py:503-610. *)
Fixpoint m_loop_int (fuel : nat) (c : m_config A) (T : vec) (maxImf : Z) (Res imf : vec)
    (rows : list (m_row A)) (extNo : Z) : res (list (m_row A) * Z) :=
  match fuel with
  | O => Raise OutOfFuel
  | S fuel' =>
    let! Res := broadcast2 nsub Res imf in
    let! (imf, n, extNo, notFinish) :=
      m_sift_int (m_sift_fuel c) c T 0 0 extNo Res (map (fun _ => n0) Res) in
    let rows := rows ++ [MkRow imf extNo n] in
    if zlen rows =? maxImf - 1 then Ok (rows, extNo)
    else if (notFinish : bool) then m_loop_int fuel' c T maxImf Res imf rows extNo
    else Ok (rows, extNo)
  end.

(** EMD.emd, EMD_matlab.py:431-623, for an integer signal and integer times (by default
    [np.arange(len(S), dtype=S.dtype)], line 465). *)
Definition m_emd_int (fuel : nat) (c : m_config A) (S : list Z) (T : option (list Z)) (maxImf : option Z)
  : res (list (m_row A) * Z) :=
  let T := match T with Some t => t | None => zseq 0 (length S) end in
  let maxImf := match maxImf with Some k => k | None => -1 end in
  if negb (Nat.eqb (length S) (length T)) then Raise ValueError
  else
    let Sf := map nofZ S in
    let! (rows, extNo) := m_loop_int fuel c (map nofZ T) maxImf Sf (map (fun _ => n0) Sf) [] 0 in
    let Res := vsub Sf (sum_rows (length Sf) (map row_imf rows)) in
    let rows := if nltb (nlit 1 (10 ^ 10)) (nsum (map nabs Res))
                then rows ++ [MkRow Res extNo 0] else rows in
    Ok (rows, zlen rows).

End MatlabInt.
