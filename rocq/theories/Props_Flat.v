(** * Props_Flat: property C54, signals that do not oscillate. *)
From Verif Require Import PyFacts QcFacts Emd Spec Demo EmdExact ExtremaProofs PrepareProofs EmdSimple EmdFlat.
From Coq Require Import QArith Qcanon.
Open Scope Z_scope.

(** ** C54: no component is extracted, the residue is the signal, and the signal is the only row
    returned (none at all if it is negligible).  'simple' mode, any times. *)
Theorem C54_monotone_signal :
  forall (spl : spline_oracle Qc) fuel c S T k,
  extrema_detection c = Simple -> monotone S ->
  (2 <= length S)%nat -> (forall t, T = Some t -> length t = length S) ->
  2 <= MAX_ITERATION c -> (0 < fuel)%nat ->
  exists o, emd spl fuel c S T k = Ok o /\ imfs o = [] /\ residue o = S /\
    (negligible S -> out o = []) /\ (~ negligible S -> out o = [S]).
Proof. exact emd_monotone_rows. Qed.
Print Assumptions C54_monotone_signal.
Example C54_nonvacuous : monotone (qs [-1; 2; 2; 5; 9]) /\ ~ negligible (qs [-1; 2; 2; 5; 9]) /\
  extrema_detection demo_default = Simple /\ 2 <= MAX_ITERATION demo_default /\
  match emd lin_spl 1 demo_default (qs [-1; 2; 2; 5; 9]) None (-1) with
  | Ok o => map (map this) (out o) | _ => [] end = map (map this) [qs [-1; 2; 2; 5; 9]].
Proof.
  split.
  { left. intros i Hi. cbn in Hi. assert (C : i = 0 \/ i = 1 \/ i = 2 \/ i = 3) by lia.
    destruct C as [->|[->|[->| ->]]]; vm_compute; discriminate. }
  split; [rewrite <- negligible_iff; vm_compute; discriminate|].
  split; [reflexivity|]. split; [cbn; lia|]. vm_compute. reflexivity.
Qed.

(** A constant signal, in both detection modes, sampled at times accepted by the call. *)
Theorem C54_constant_signal :
  forall (spl : spline_oracle Qc) fuel c v n T k t,
  extrema_detection c <> OtherDetection ->
  (2 <= n)%nat -> emd_time c (repeat v n) T = Ok t -> length t = n ->
  2 <= MAX_ITERATION c -> (0 < fuel)%nat ->
  exists o, emd spl fuel c (repeat v n) T k = Ok o /\ imfs o = [] /\ residue o = repeat v n /\
    (within tol v -> out o = []) /\ (~ within tol v -> out o = [repeat v n]).
Proof. exact emd_constant_rows. Qed.
Print Assumptions C54_constant_signal.
Example C54_constant_nonvacuous :
  match emd_time demo_parabol (repeat (q 7) 4) (Some (qs [1; 2; 4; 7])) with
  | Ok t => map this t | _ => [] end = map this (qs [0; 1; 3; 6]).
Proof. vm_compute. reflexivity. Qed.

(** Whatever the mode: at most two extrema (maxima and minima together). *)
Theorem C54_few_extrema :
  forall (spl : spline_oracle Qc) fuel c S T k t e,
  emd_time c S T = Ok t -> length t = length S -> S <> [] ->
  find_extrema (extrema_detection c) t S = Ok e -> zlen (max_pos e) + zlen (min_pos e) <= 2 ->
  2 <= MAX_ITERATION c -> (0 < fuel)%nat ->
  exists o, emd spl fuel c S T k = Ok o /\ imfs o = [] /\ residue o = S /\
    (negligible S -> out o = []) /\ (~ negligible S -> out o = [S]).
Proof. exact emd_few_rows. Qed.
Print Assumptions C54_few_extrema.
Example C54_few_nonvacuous :
  match emd_time demo_parabol (qs [0; 3; 1; 2]) None with
  | Ok t => match find_extrema Parabol t (qs [0; 3; 1; 2]) with
            | Ok e => (zlen (max_pos e), zlen (min_pos e)) | _ => (0, 0) end
  | _ => (0, 0) end = (1, 1).
Proof. vm_compute. reflexivity. Qed.
