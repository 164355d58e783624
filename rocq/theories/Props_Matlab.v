(** * Props_Matlab: properties C44 and C45, about EMD_matlab.py.

    [shaped], [adds_up] are defined in Spec.v; [remainder], [tiny], [steps], [mean_removed],
    [settled], [flat_ends], [extra_min] in MatlabSpec.v.  A row of the result is one entry of
    the returned dictionaries IMF ([row_imf]), EXT ([row_ext]) and ITER ([row_iter]). *)
From Verif Require Import PyFacts QcFacts Emd Matlab Spec MatlabSpec EmdControl MatlabRun MatlabDemo Demo DemoFacts.
From Coq Require Import QArith Qcanon.
From Coq Require String.
Open Scope Z_scope.

(** ** C44 *)
Theorem C44_rows :
  forall {A} `{Num A} (spl : spline_oracle A) fuel c S T k rows no,
  m_emd spl fuel c S T k = Ok (rows, no) ->
  shaped (length S) (map row_imf rows) /\ no = zlen rows.
Proof. exact @m_shaped. Qed.
Print Assumptions C44_rows.

(** The rows add up to the signal, up to a rest of total size at most 1e-10. *)
Theorem C44_sum :
  forall spl fuel c S T k rows no,
  m_emd spl fuel c S T k = Ok (rows, no) ->
  adds_up (map row_imf rows) S \/ exists R, remainder S (map row_imf rows) R /\ tiny R.
Proof. exact m_sum. Qed.
Print Assumptions C44_sum.

Theorem C44_limit :
  forall {A} `{Num A} (spl : spline_oracle A) fuel c S T k rows no,
  2 <= k -> m_emd spl fuel c S T (Some k) = Ok (rows, no) -> zlen rows <= k.
Proof. exact @m_limit. Qed.
Print Assumptions C44_limit.

(** With a limit [k >= 2] the decomposition always ends, after at most [k - 1] passes. *)
Theorem C44_terminates :
  forall {A} `{Num A} (spl : spline_oracle A),
  (forall k p t, spl k p t <> Raise OutOfFuel) ->
  forall fuel c S T k, 2 <= k -> (Z.to_nat (k - 1) <= fuel)%nat ->
  m_emd spl fuel c S T (Some k) <> Raise OutOfFuel.
Proof. exact @m_emd_total. Qed.
Print Assumptions C44_terminates.

(** A limit of one (or less) is no limit at all. *)
Theorem C44_limit_one_ignored :
  forall {A} `{Num A} (spl : spline_oracle A) fuel c S T k,
  k <= 1 -> m_emd spl fuel c S T (Some k) = m_emd spl fuel c S T None.
Proof. exact @m_emd_nolimit. Qed.
Print Assumptions C44_limit_one_ignored.

Theorem C44_limit_one_refuted :
  exists spl fuel c S rows no, m_emd spl fuel c S None (Some 1) = Ok (rows, no) /\ 1 < zlen rows.
Proof.
  exists lin_spl, 10%nat, mat_fixe, demo_S.
  destruct (m_emd lin_spl 10 mat_fixe demo_S None (Some 1)) as [[rows no]|] eqn:E.
  - exists rows, no. split; auto.
    assert (G : match m_emd lin_spl 10 mat_fixe demo_S None (Some 1) with Ok (r, _) => 1 <? zlen r | _ => false end = true)
      by (vm_compute; reflexivity).
    rewrite E in G. apply Z.ltb_lt in G. exact G.
  - exfalso. assert (G : match m_emd lin_spl 10 mat_fixe demo_S None (Some 1) with Ok (r, _) => 1 <? zlen r | _ => false end = true)
      by (vm_compute; reflexivity).
    rewrite E in G. discriminate.
Qed.
Print Assumptions C44_limit_one_refuted.

(** FIXE = k: every row but the final rest is what remains of the signal after the earlier
    rows, sifted exactly k times, unless at most two extrema were left. *)
Theorem C44_fixed_sifts :
  forall spl fuel c S T k rows no,
  0 < m_FIXE c <= maxIteration c -> m_FIXE c < m_MAX_ITERATION c ->
  m_emd spl fuel c S T k = Ok (rows, no) ->
  let t := match T with Some t => t | None => arange (length S) end in
  exists rs rest, map row_imf rows = map row_imf rs ++ rest /\
    (rest = [] \/ exists R, rest = [R] /\ remainder S (map row_imf rs) R) /\
    forall j r, nth_error rs j = Some r ->
    exists R q, remainder S (map row_imf (firstn j rs)) R /\
      steps (fun x y => exists up low, extractMaxMinSpline spl c t x = Ok (Some (up, low)) /\
                                       mean_removed (reduceScale c) up low x y) q R (row_imf r) /\
      (Z.of_nat q = m_FIXE c \/
       Z.of_nat q <= m_FIXE c /\ exists e, findExtrema t (row_imf r) = Ok e /\ ext_no e <= 2).
Proof. exact m_fixed. Qed.
Print Assumptions C44_fixed_sifts.

(** Default mode: every row but the final rest is sifted until at most two extrema are left, an
    iteration limit is met, or the documented stop rule holds of its own envelopes. *)
Theorem C44_default_stop :
  forall spl fuel c S T k rows no,
  1 <= m_MAX_ITERATION c -> m_FIXE c = 0 -> m_FIXE_H c = 0 ->
  m_emd spl fuel c S T k = Ok (rows, no) ->
  let t := match T with Some t => t | None => arange (length S) end in
  exists rs rest, map row_imf rows = map row_imf rs ++ rest /\
    (rest = [] \/ exists R, rest = [R] /\ remainder S (map row_imf rs) R) /\
    forall j r, nth_error rs j = Some r ->
    exists R q, remainder S (map row_imf (firstn j rs)) R /\
      steps (fun x y => exists up low, extractMaxMinSpline spl c t x = Ok (Some (up, low)) /\
                                       mean_removed (reduceScale c) up low x y) q R (row_imf r) /\
      ((exists e, findExtrema t (row_imf r) = Ok e /\ ext_no e <= 2) \/
       maxIteration c <= Z.of_nat q \/ m_MAX_ITERATION c - 1 <= Z.of_nat q \/
       exists up low e, extractMaxMinSpline spl c t (row_imf r) = Ok (Some (up, low)) /\
         findExtrema t (row_imf r) = Ok e /\
         (length up = length low -> settled (stop1 c) (stop2 c) (stop3 c) up low /\ 2 < ext_no e) /\
         Z.abs (ext_no e - zlen (indzer e)) <= 1).
Proof. exact m_default. Qed.
Print Assumptions C44_default_stop.

Example C44_nonvacuous :
  match m_emd lin_spl 10 mat_fixe demo_S None (Some 3) with
  | Ok (rows, no) => (map row_iter rows, no, map (fun r => length (row_imf r)) rows)
  | Raise _ => ([], 0, [])
  end = ([3; 3; 0], 3, [19; 19; 19]%nat).
Proof. vm_compute. reflexivity. Qed.

(** ** C45 *)
(** Apart from signals flat at both ends, findExtrema and 'simple' detection agree. *)
Theorem C45_same_extrema :
  forall T S, ~ flat_ends S -> findExtrema T S = find_extrema Simple T S.
Proof. exact findExtrema_same. Qed.
Print Assumptions C45_same_extrema.

(** What findExtrema reports for every signal. *)
Theorem C45_extrema :
  forall T S, length T = length S ->
  exists e M m, findExtrema T S = Ok e /\
    max_pos e = map (sample T) M /\ max_val e = map (sample S) M /\
    min_pos e = map (sample T) m /\ min_val e = map (sample S) m /\
    indzer e = zero_crossings S /\ zincreasing M /\ zincreasing m /\
    (forall i, In i M <-> reported_max S i) /\
    (forall i, In i m <-> reported_min S i \/ extra_min S i).
Proof. exact findExtrema_spec. Qed.
Print Assumptions C45_extrema.

Theorem C45_same_extrema_refuted :
  exists T S e e', findExtrema T S = Ok e /\ find_extrema Simple T S = Ok e' /\
    zlen (min_pos e) = zlen (min_pos e') + 1.
Proof.
  exists (qs [0; 1; 2; 3]), (qs [1; 1; 2; 2]). do 2 eexists.
  split; [vm_compute; reflexivity|]. split; [vm_compute; reflexivity|]. reflexivity.
Qed.
Print Assumptions C45_same_extrema_refuted.

(** On the default time axis the mirrored points are the same. *)
Theorem C45_same_points :
  forall S nb e, find_extrema Simple (arange (length S)) S = Ok e ->
  preparePoints nb (arange (length S)) S e = prepare_points Simple nb (arange (length S)) S e.
Proof. exact m_prepare_same. Qed.
Print Assumptions C45_same_points.

(** And the envelopes, for the spline kinds both know. *)
Theorem C45_same_envelopes :
  forall spl (c : emd_config Qc) mc S,
  ~ flat_ends S -> extrema_detection c = Simple -> m_nbsym mc = nbsym c -> 1 <= nbsym c ->
  m_splineKind mc = spline_kind c ->
  parse_kind (spline_kind c) <> Some Pchip -> parse_kind (spline_kind c) <> Some CubicHermite ->
  extractMaxMinSpline spl mc (arange (length S)) S =
    let! e := find_extrema Simple (arange (length S)) S in
    if ext_no e <? 3 then Ok None
    else let! (up, low, _, _) := extract_max_min_spline spl c (arange (length S)) S in Ok (Some (up, low)).
Proof. exact m_envelopes_same. Qed.
Print Assumptions C45_same_envelopes.
Example C45_nonvacuous :
  ~ flat_ends demo_S /\
  match findExtrema (arange (length demo_S)) demo_S, extractMaxMinSpline lin_spl mat_linear (arange (length demo_S)) demo_S with
  | Ok e, Ok (Some (up, low)) => (zlen (max_pos e), zlen (min_pos e), length up, length low)
  | _, _ => (0, 0, O, O)
  end = (3, 4, 19%nat, 19%nat).
Proof.
  split; [|vm_compute; reflexivity]. intros [H _]. vm_compute in H. discriminate.
Qed.
