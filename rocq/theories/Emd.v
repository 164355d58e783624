(** * Emd: model of the EMD class (EMD.py:122-163, 689-960). *)
From Verif Require Export Spline.
From Coq Require String.

(** Configuration attributes of an EMD object (EMD.py:61-117).  [scale_factor] is stored
    by the constructor and never used. *)
Record emd_config (A : Type) := MkCfg {
  std_thr : A; svar_thr : A; energy_ratio_thr : A;
  total_power_thr : A; range_thr : A;
  nbsym : Z;
  spline_kind : String.string;
  extrema_detection : detection;
  FIXE : Z; FIXE_H : Z; MAX_ITERATION : Z
}.
Arguments std_thr {A}. Arguments svar_thr {A}. Arguments energy_ratio_thr {A}.
Arguments total_power_thr {A}. Arguments range_thr {A}. Arguments nbsym {A}.
Arguments spline_kind {A}. Arguments extrema_detection {A}.
Arguments FIXE {A}. Arguments FIXE_H {A}. Arguments MAX_ITERATION {A}.
Arguments MkCfg {A}.

Section Emd.
Context {A : Type} `{Num A}.
Notation vec := (list A).
Notation rows := (list (list A)).

Variable spl : spline_oracle A.   (** SciPy's interpolation *)

(** EMD.extract_max_min_spline, EMD.py:122-163.  With fewer than three extrema the code
    returns [[-1]*4], which the caller cannot use: TypeError at [eMax[1]]. *)
Definition extract_max_min_spline (c : emd_config A) (T S : vec)
  : res (vec * vec * list (A * A) * list (A * A)) :=
  let! e := find_extrema (extrema_detection c) T S in
  if zlen (max_pos e) + zlen (min_pos e) <? 3 then Raise TypeError
  else
    let! (maxe, mine) := prepare_points (extrema_detection c) (nbsym c) T S e in
    let! maxs := spline_points spl (spline_kind c) T maxe in
    let! mins := spline_points spl (spline_kind c) T mine in
    Ok (maxs, mins, maxe, mine).

(** EMD.end_condition, EMD.py:689-718. *)
Definition end_condition (c : emd_config A) (S : vec) (IMF : rows) : res bool :=
  let tmp := vsub S (sum_rows (length S) IMF) in
  let! mx := np_max tmp in
  let! mn := np_min tmp in
  if nltb (nsub mx mn) (range_thr c) then Ok true
  else if nltb (nsum (map nabs tmp)) (total_power_thr c) then Ok true
  else Ok false.

(** EMD.check_imf, EMD.py:720-761.  NumPy's x/0 is inf or nan, which is never below a
    threshold: written here as explicit guards on the zero denominators.  The code takes
    Python's own max and min here (745), which a NaN does not always pass through; with a
    NaN in [imf_old] the sum of squares is NaN and no test below passes either way. *)
Definition check_imf (c : emd_config A) (imf_new imf_old : vec) (eMax eMin : list (A * A))
  : res bool :=
  if existsb (fun p => nltb (snd p) n0) eMax || existsb (fun p => nltb n0 (snd p)) eMin
  then Ok false
  else if nltb (nsum (map (fun x => nmul x x) imf_new)) (nlit 1 (10 ^ 10)) then Ok false
  else
    let imf_diff := vsub imf_new imf_old in
    let dsq := nsum (map (fun x => nmul x x) imf_diff) in
    let! mx := np_max imf_old in
    let! mn := np_min imf_old in
    let range := nsub mx mn in
    if negb (is0 range) && nltb (ndiv dsq range) (svar_thr c) then Ok true
    else if negb (existsb is0 imf_new)
         && nltb (nsum (map2 (fun d x => nmul (ndiv d x) (ndiv d x)) imf_diff imf_new))
                 (std_thr c) then Ok true
    else
      let en := nsum (map (fun x => nmul x x) imf_old) in
      if negb (is0 en) && nltb (ndiv dsq en) (energy_ratio_thr c) then Ok true
      else Ok false.

(** EMD._normalize_time, EMD.py:763-771. *)
Definition normalize_time (t : vec) : res vec :=
  let d := ndiff t in
  if existsb is0 d then Raise AssertionError
  else
    let! t0 := py_get t 0 in
    let! m := np_min d in
    Ok (map (fun x => ndiv (nsub x t0) m) t).

(** Number of extrema of [find_extrema]'s result: len(max_pos) + len(min_pos). *)
Definition ext_no (e : extrema_out A) : Z := zlen (max_pos e) + zlen (min_pos e).

(** Body of one sift, EMD.py:846-850: subtract the mean of the two envelopes.
    Result: (imf - mean, eMax, eMin). *)
Definition sift_step (c : emd_config A) (T imf : vec)
  : res (vec * list (A * A) * list (A * A)) :=
  let! (max_env, min_env, eMax, eMin) := extract_max_min_spline c T imf in
  let! sum := broadcast2 nadd max_env min_env in
  let! mean := assign_all (length imf) (map (nmul nhalf) sum) in
  Ok (vsub imf mean, eMax, eMin).

(** The sifting loop, EMD.py:834-899, entered with counter [n] (about to be incremented)
    and proto-imf counter [n_h].  [extNo] is the variable of the enclosing function.
    Result: (imf, extNo, finished).  [imf_old is np.nan] (886) is never true at that point
    because imf_old was assigned two lines before (849). *)
Fixpoint sift (fuel : nat) (c : emd_config A) (T : vec) (n n_h extNo : Z) (imf : vec)
  : res (vec * Z * bool) :=
  match fuel with
  | O => Raise OutOfFuel
  | S fuel' =>
    let n := n + 1 in
    if MAX_ITERATION c <=? n then Ok (imf, extNo, false)
    else
      let! e := find_extrema (extrema_detection c) T imf in
      let extNo := ext_no e in
      if 2 <? extNo then
        let imf_old := imf in
        let! (imf, eMax, eMin) := sift_step c T imf in
        if negb (FIXE c =? 0) then
          if FIXE c <=? n then Ok (imf, extNo, false)
          else sift fuel' c T n n_h extNo imf
        else if negb (FIXE_H c =? 0) then
          let! e' := find_extrema (extrema_detection c) T imf in
          let extNo := ext_no e' in
          let nzm := zlen (indzer e') in
          if n =? 1 then sift fuel' c T n n_h extNo imf
          else
            let n_h := if Z.abs (extNo - nzm) <? 2 then n_h + 1 else 0 in
            if FIXE_H c <=? n_h then Ok (imf, extNo, false)
            else sift fuel' c T n n_h extNo imf
        else
          let! e' := find_extrema (extrema_detection c) T imf in
          let extNo := ext_no e' in
          let nzm := zlen (indzer e') in
          let! f1 := check_imf c imf imf_old eMax eMin in
          let f2 := Z.abs (extNo - nzm) <? 2 in
          if f1 && f2 then Ok (imf, extNo, false)
          else sift fuel' c T n n_h extNo imf
      else Ok (imf, extNo, true)
  end.

(** Fuel that always suffices for the sifting loop (proved: [sift_total]). *)
Definition sift_fuel (c : emd_config A) : nat := Datatypes.S (Z.to_nat (MAX_ITERATION c)).

(** The outer loop, EMD.py:823-906.  [IMF] are the components found so far.
    Result: (IMF, extNo) at loop exit. *)
Fixpoint emd_loop (fuel : nat) (c : emd_config A) (S T : vec) (max_imf : Z)
    (IMF : rows) (extNo : Z) : res (rows * Z) :=
  match fuel with
  | O => Raise OutOfFuel
  | Datatypes.S fuel' =>
    let residue := vsub S (sum_rows (length S) IMF) in
    let! (imf, extNo, finished) :=
      sift (sift_fuel c) c T 0 0 extNo residue in
    let IMF := IMF ++ [imf] in
    let! stop := end_condition c S IMF in
    if (stop : bool) || (zlen IMF =? max_imf) then Ok (IMF, extNo)
    else if (finished : bool) then Ok (IMF, extNo)
    else emd_loop fuel' c S T max_imf IMF extNo
  end.

(** Outcome of a successful decomposition: the returned array and the two attributes
    stored on the object (EMD.py:908-920). *)
Record emd_out := MkOut { out : rows; imfs : rows; residue : vec }.

Definition emd_finish (S : vec) (IMF : rows) (extNo : Z) : emd_out :=
  let IMF := if extNo <=? 2 then removelast IMF else IMF in
  let r := vsub S (sum_rows (length S) IMF) in
  MkOut (if allclose0 r then IMF else IMF ++ [r]) IMF r.

(** [get_timeline(len(S), S.dtype)], utils.py:12-27, with exact values; see Utils.v for
    the dtype part.  [timeline[-1]] raises IndexError on length zero. *)
Definition timeline (n : nat) : res vec :=
  match n with
  | O => Raise IndexError
  | _ => Ok (map nofZ (zseq 0 n))
  end.

(** The time array used by [emd], EMD.py:796-806. *)
Definition emd_time (c : emd_config A) (S : vec) (T : option vec) : res vec :=
  let! _ := match T with
            | Some t => if Nat.eqb (length S) (length t) then Ok tt else Raise ValueError
            | None => Ok tt
            end in
  let! t := match T, extrema_detection c with
            | Some t, Parabol | Some t, OtherDetection => Ok t
            | _, _ => timeline (length S)
            end in
  normalize_time t.

(** EMD.emd, EMD.py:773-920. *)
Definition emd (fuel : nat) (c : emd_config A) (S : vec) (T : option vec) (max_imf : Z)
  : res emd_out :=
  let! t := emd_time c S T in
  if negb (Nat.eqb (length S) (length t)) then Raise ValueError
  else
    let! (IMF, extNo) := emd_loop fuel c S t max_imf [] (-1) in
    Ok (emd_finish S IMF extNo).

(** ** The object: attributes [imfs] and [residue], None before the first run
    (EMD.py:116-117). *)
Record emd_state := MkState { st_imfs : option rows; st_residue : option vec }.
Definition emd_init : emd_state := MkState None None.

(** A method call of EMD.emd on an object: the attributes are assigned only after the
    decomposition succeeded (EMD.py:913-914). *)
Definition emd_call (fuel : nat) (c : emd_config A) (st : emd_state)
    (S : vec) (T : option vec) (max_imf : Z) : res rows * emd_state :=
  match emd fuel c S T max_imf with
  | Ok o => (Ok (out o), MkState (Some (imfs o)) (Some (residue o)))
  | Raise e => (Raise e, st)
  end.

(** EMD.get_imfs_and_residue, EMD.py:922-936. *)
Definition get_imfs_and_residue (st : emd_state) : res (rows * vec) :=
  match st_imfs st, st_residue st with
  | Some i, Some r => Ok (i, r)
  | _, _ => Raise ValueError
  end.

(** EMD.get_imfs_and_trend, EMD.py:938-960. *)
Definition get_imfs_and_trend (st : emd_state) : res (rows * vec) :=
  let! (i, r) := get_imfs_and_residue st in
  if allclose0 r then
    let! trend := py_get i (-1) in
    Ok (py_slice i 0 (-1), trend)
  else Ok (i, r).

End Emd.
Arguments sift_fuel : simpl never.

Arguments emd_out A : clear implicits.
Arguments emd_state A : clear implicits.
