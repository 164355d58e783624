(** * Narrow: EMD on arrays narrower than float64.

    [N] is the arithmetic of the array's own type ([self.DTYPE]: float16 or float32), [W] that of
    float64; [up] converts to float64, [down] back ([x[:] = y] for an array [x] of the narrow
    type).  EMD.py:773-920: residue, imf and mean have type DTYPE (810, 811, 828); the container IMF
    is float64 (820), hence also [S - np.sum(IMF)] (708, 826, 914).

    [draw] is EMD.spline_points (EMD.py:457-498) as a whole: knots of the narrow type, values in
    either type (the kinds at 495 cast back to DTYPE; the others return what SciPy does).
    Simplification: beyond 65503 samples of float16 the timeline is float32 (utils.py:30-58) and the
    code goes on in that type; here it stays in float16. *)
From Verif Require Export Emd.
Open Scope Z_scope.

Section Narrow.
Context {N : Type} `{Num N} {W : Type} `{Num W}.
Variable up : N -> W.
Variable down : W -> N.

(** A NumPy array of one of the two types. *)
Inductive arr := InN (l : list N) | InW (l : list W).
Definition wide (a : arr) : list W := match a with InN l => map up l | InW l => l end.
Variable draw : list N -> list (N * N) -> res arr.

(** [mean[:] = 0.5 * (max_env + min_env)], EMD.py:847: float64 unless both arrays are narrow. *)
Definition half_sum (n : nat) (a b : arr) : res (list N) :=
  match a, b with
  | InN x, InN y => let! s := broadcast2 nadd x y in assign_all n (map (nmul nhalf) s)
  | _, _ => let! s := broadcast2 nadd (wide a) (wide b) in assign_all n (map (fun v => down (nmul nhalf v)) s)
  end.

(** EMD.py:845-850. *)
Definition sift_step_n (c : emd_config N) (T imf : list N) : res (list N * list (N * N) * list (N * N)) :=
  let! e := find_extrema (extrema_detection c) T imf in
  if zlen (max_pos e) + zlen (min_pos e) <? 3 then Raise TypeError
  else
    let! (eMax, eMin) := prepare_points (extrema_detection c) (nbsym c) T imf e in
    let! max_env := draw T eMax in
    let! min_env := draw T eMin in
    let! mean := half_sum (length imf) max_env min_env in
    Ok (vsub imf mean, eMax, eMin).

(** EMD.py:834-899, as [sift] of Emd.v. *)
Fixpoint sift_n (fuel : nat) (c : emd_config N) (T : list N) (n n_h extNo : Z) (imf : list N) : res (list N * Z * bool) :=
  match fuel with
  | O => Raise OutOfFuel
  | S fuel' =>
    let n := n + 1 in
    if MAX_ITERATION c <=? n then Ok (imf, extNo, false)
    else
      let! e := find_extrema (extrema_detection c) T imf in
      let extNo := ext_no e in
      if 2 <? extNo then
        let imf_old := imf in
        let! (imf, eMax, eMin) := sift_step_n c T imf in
        if negb (FIXE c =? 0) then
          if FIXE c <=? n then Ok (imf, extNo, false)
          else sift_n fuel' c T n n_h extNo imf
        else if negb (FIXE_H c =? 0) then
          let! e' := find_extrema (extrema_detection c) T imf in
          let extNo := ext_no e' in
          let nzm := zlen (indzer e') in
          if n =? 1 then sift_n fuel' c T n n_h extNo imf
          else
            let n_h := if Z.abs (extNo - nzm) <? 2 then n_h + 1 else 0 in
            if FIXE_H c <=? n_h then Ok (imf, extNo, false)
            else sift_n fuel' c T n n_h extNo imf
        else
          let! e' := find_extrema (extrema_detection c) T imf in
          let extNo := ext_no e' in
          let nzm := zlen (indzer e') in
          let! f1 := check_imf c imf imf_old eMax eMin in
          let f2 := Z.abs (extNo - nzm) <? 2 in
          if f1 && f2 then Ok (imf, extNo, false)
          else sift_n fuel' c T n n_h extNo imf
      else Ok (imf, extNo, true)
  end.

(** EMD.py:823-906; [cw] holds the thresholds of [end_condition], which compares float64 numbers. *)
Fixpoint emd_loop_n (fuel : nat) (c : emd_config N) (cw : emd_config W) (S T : list N) (max_imf : Z)
    (IMF : list (list W)) (extNo : Z) : res (list (list W) * Z) :=
  match fuel with
  | O => Raise OutOfFuel
  | Datatypes.S fuel' =>
    let residue := map down (vsub (map up S) (sum_rows (length S) IMF)) in
    let! (imf, extNo, finished) := sift_n (sift_fuel c) c T 0 0 extNo residue in
    let IMF := IMF ++ [map up imf] in
    let! stop := end_condition cw (map up S) IMF in
    if (stop : bool) || (zlen IMF =? max_imf) then Ok (IMF, extNo)
    else if (finished : bool) then Ok (IMF, extNo)
    else emd_loop_n fuel' c cw S T max_imf IMF extNo
  end.

(** EMD.emd, EMD.py:773-920, for a signal and times of one narrow type. *)
Definition emd_n (fuel : nat) (c : emd_config N) (cw : emd_config W) (S : list N) (T : option (list N)) (max_imf : Z)
  : res (emd_out W) :=
  let! t := emd_time c S T in
  if negb (Nat.eqb (length S) (length t)) then Raise ValueError
  else
    let! (IMF, extNo) := emd_loop_n fuel c cw S t max_imf [] (-1) in
    Ok (emd_finish (map up S) IMF extNo).
End Narrow.
