(** * Props_Stop: property C87, sifting stops as soon as its rule is met, and not before.

    [until rule exhausted l] (StopSpec.v): no proper initial part of [l] meets [rule]; all of [l] does,
    unless [exhausted].  [leads] and [visits] list the sifts, and the arrays, between two arrays. *)
From Verif Require Import PyFacts QcFacts Emd Jit Matlab Spec MatlabSpec StopSpec EmdControl EmdTop Stop StopTop StopJit MatlabRun StopMatlab Demo MatlabDemo Recon.
From Coq Require Import QArith Qcanon.
From Coq Require Import List.
Import ListNotations.
Open Scope Z_scope.

(** ** C87 *)
(** EMD with FIXE_H = h: each IMF comes from what was left before it, by sifts up to the first one that
    completes [h] sifts in a row, not counting the very first, whose results have as many extrema as
    zero crossings, give or take one. *)
Theorem C87_fixe_h :
  forall A (N : Num A) (spl : spline_oracle A) fuel c S T k o, emd spl fuel c S T k = Ok o ->
  FIXE c = 0 -> 0 < FIXE_H c -> 2 <= MAX_ITERATION c ->
  exists t, emd_time c S T = Ok t /\ forall i, (i < length (imfs o))%nat ->
  exists l,
    leads (fun s => sift_step spl c t (before s) = Ok (after s, upper s, lower s))
      (vsub S (sum_rows (length S) (firstn i (imfs o)))) l (nth i (imfs o) []) /\
    until (last_all_good (fun s => balanced c t (after s)) (Z.to_nat (FIXE_H c)))
      (zlen l = MAX_ITERATION c - 1) l.
Proof. exact @emd_until_h. Qed.
Print Assumptions C87_fixe_h.

(** EMD with the default rule: up to the first sift whose result meets the convergence thresholds and has
    as many extrema as zero crossings, give or take one. *)
Theorem C87_default :
  forall spl fuel c (S : list Qc) T k o, emd spl fuel c S T k = Ok o ->
  FIXE c = 0 -> FIXE_H c = 0 -> 2 <= MAX_ITERATION c ->
  exists t, emd_time c S T = Ok t /\ forall i, (i < length (imfs o))%nat ->
  exists l,
    leads (fun s => sift_step spl c t (before s) = Ok (after s, upper s, lower s))
      (vsub S (sum_rows (length S) (firstn i (imfs o)))) l (nth i (imfs o) []) /\
    until (last_good (fun s =>
        converged (svar_thr c) (std_thr c) (energy_ratio_thr c) (after s) (before s) (upper s) (lower s) /\
        balanced c t (after s)))
      (zlen l = MAX_ITERATION c - 1) l.
Proof. exact emd_until. Qed.
Print Assumptions C87_default.
(** The signal of the examples. *)
Definition stop_S : list Qc := qs [0; 2; 0; 6; 4; 6; 0; 2; 0; 6; 4].
Example C87_emd_nonvacuous :
  match emd lin_spl 8 demo_fixeh stop_S None (-1), emd lin_spl 8 demo_default stop_S None (-1) with
  | Ok o, Ok o' => (Nat.ltb 0 (length (imfs o)), Nat.ltb 0 (length (imfs o')), FIXE demo_fixeh, FIXE_H demo_fixeh, FIXE demo_default, FIXE_H demo_default)
  | _, _ => (false, false, 0, 0, 0, 0)
  end = (true, true, 0, 2, 0, 0).
Proof. vm_compute. reflexivity. Qed.

(** JitEMD, the same rules; [rest] is the remaining signal, when it is not negligible. *)
Theorem C87_jit_fixe_h :
  forall A (N : Num A) (spl : spline_oracle A) strict fuel c S T k M, jit_emd spl fuel strict c S T k = Ok M ->
  FIXE c = 0 -> 0 < FIXE_H c -> 2 <= MAX_ITERATION c ->
  exists K rest, M = K ++ rest /\ (rest = [] \/ rest = [vsub S (sum_rows (length S) K)]) /\
  forall i, (i < length K)%nat ->
  exists l,
    leads (fun s => jit_sift_step spl c T (before s) = Ok (after s, upper s, lower s))
      (vsub S (sum_rows (length S) (firstn i K))) l (nth i K []) /\
    until (last_all_good (fun s => jit_balanced c T (after s)) (Z.to_nat (FIXE_H c)))
      (zlen l = MAX_ITERATION c - 1) l.
Proof. exact @jit_until_h. Qed.
Print Assumptions C87_jit_fixe_h.

Theorem C87_jit_default :
  forall spl strict fuel c (S : list Qc) T k M, (2 <= length S)%nat -> jit_emd spl fuel strict c S T k = Ok M ->
  FIXE c = 0 -> FIXE_H c = 0 -> 2 <= MAX_ITERATION c ->
  exists K rest, M = K ++ rest /\ (rest = [] \/ rest = [vsub S (sum_rows (length S) K)]) /\
  forall i, (i < length K)%nat ->
  exists l,
    leads (fun s => jit_sift_step spl c T (before s) = Ok (after s, upper s, lower s))
      (vsub S (sum_rows (length S) (firstn i K))) l (nth i K []) /\
    until (last_good (fun s =>
        converged (svar_thr c) (std_thr c) (energy_ratio_thr c) (after s) (before s) (upper s) (lower s) /\
        jit_balanced c T (after s)))
      (zlen l = MAX_ITERATION c - 1) l.
Proof. exact jit_until. Qed.
Print Assumptions C87_jit_default.
Example C87_jit_nonvacuous :
  match jit_emd lin_spl 8 true demo_fixeh stop_S (arange (length stop_S)) (-1), jit_emd lin_spl 8 true demo_default stop_S (arange (length stop_S)) (-1) with
  | Ok M, Ok M' => Nat.ltb 1 (length M) && Nat.ltb 1 (length M')
  | _, _ => false
  end = true.
Proof. vm_compute. reflexivity. Qed.

(** EMD_matlab: the rules look at the arrays, of which the first is the unsifted remainder.  Sifting also
    ends at an array with fewer than three extrema, after [maxIteration] sifts, and at the limit
    [MAX_ITERATION]. *)
Theorem C87_matlab_fixe_h :
  forall spl fuel c (S : list Qc) T k rows no, 1 <= m_MAX_ITERATION c -> m_FIXE c = 0 -> 0 < m_FIXE_H c ->
  m_emd spl fuel c S T k = Ok (rows, no) ->
  exists rs rest, map row_imf rows = map row_imf rs ++ rest /\
    (rest = [] \/ exists R, rest = [R] /\ remainder S (map row_imf rs) R) /\
  forall j r, nth_error rs j = Some r ->
  exists R l, remainder S (map row_imf (firstn j rs)) R /\ visits (m_step spl c (m_time S T)) R l (row_imf r) /\
    until (last_all_good
        (fun x => exists e, findExtrema (m_time S T) x = Ok e /\ Z.abs (ext_no e - zlen (indzer e)) <= 1)
        (Z.to_nat (m_FIXE_H c)))
      ((exists e, findExtrema (m_time S T) (row_imf r) = Ok e /\ ext_no e <= 2) \/
       maxIteration c <= zlen l - 1 \/ m_MAX_ITERATION c <= zlen l) l.
Proof. exact m_until_h. Qed.
Print Assumptions C87_matlab_fixe_h.

(** [stretch]: an envelope of one sample stands for a constant. *)
Theorem C87_matlab_default :
  forall spl fuel c (S : list Qc) T k rows no, 1 <= m_MAX_ITERATION c -> m_FIXE c = 0 -> m_FIXE_H c = 0 ->
  m_emd spl fuel c S T k = Ok (rows, no) ->
  exists rs rest, map row_imf rows = map row_imf rs ++ rest /\
    (rest = [] \/ exists R, rest = [R] /\ remainder S (map row_imf rs) R) /\
  forall j r, nth_error rs j = Some r ->
  exists R l, remainder S (map row_imf (firstn j rs)) R /\ visits (m_step spl c (m_time S T)) R l (row_imf r) /\
    until (last_good (fun x => exists up low e,
        extractMaxMinSpline spl c (m_time S T) x = Ok (Some (up, low)) /\ findExtrema (m_time S T) x = Ok e /\
        settled (stop1 c) (stop2 c) (stop3 c) (stretch (span up low) up) (stretch (span up low) low) /\
        2 < ext_no e /\ Z.abs (ext_no e - zlen (indzer e)) <= 1))
      ((exists e, findExtrema (m_time S T) (row_imf r) = Ok e /\ ext_no e <= 2) \/
       maxIteration c <= zlen l - 1 \/ m_MAX_ITERATION c <= zlen l) l.
Proof. exact m_until. Qed.
Print Assumptions C87_matlab_default.
Example C87_matlab_nonvacuous :
  match m_emd lin_spl 8 (mat_cfg (m_splineKind mat_linear) 0 2) stop_S None None, m_emd lin_spl 8 mat_linear stop_S None None with
  | Ok (rows, _), Ok (rows', _) => (map row_iter rows, map row_iter rows')
  | _, _ => ([], [])
  end = ([3; 3; 3; 1], [5; 3; 6; 1]).
Proof. vm_compute. reflexivity. Qed.
