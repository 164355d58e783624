(** * Props_Envelope: property C84, the envelopes touch the signal at its extrema.

    [reported_max], [reported_min] (Spec.v): a sample that is a local maximum (minimum) by the rules
    of the 'simple' detection.  [passes_through spl] (Envelope.v): on increasing knots, the
    interpolation gives one value per instant and the value of the knot at each instant that is a knot.
    The arithmetic is exact (Qc) and the instants are 0, 1, 2, ... *)
From Verif Require Import PyFacts QcFacts Emd Spec EmdProofs Demo Envelope.
From Coq Require Import QArith Qcanon Lia.
From Coq Require Import List.
Import ListNotations.
Open Scope Z_scope.

(** ** C84 *)
(** Both envelopes have as many samples as the signal, the upper one passes through every maximum and
    the lower one through every minimum. *)
Theorem C84_envelopes :
  forall spl c S up lo P Q, passes_through spl -> extrema_detection c = Simple -> 1 <= nbsym c ->
  extract_max_min_spline spl c (arange (length S)) S = Ok (up, lo, P, Q) ->
  length up = length S /\ length lo = length S /\
  (forall i, reported_max S i -> sample up i = sample S i) /\
  (forall i, reported_min S i -> sample lo i = sample S i).
Proof. intros spl c S up lo P Q Hs. exact (envelopes_touch spl Hs c S up lo P Q). Qed.
Print Assumptions C84_envelopes.

(** One sift takes the mean of the envelopes away, so that it leaves half the height above the lower
    envelope at every maximum, and half the depth below the upper one at every minimum. *)
Theorem C84_sift :
  forall spl c x y, passes_through spl -> extrema_detection c = Simple -> 1 <= nbsym c ->
  one_sift spl c (arange (length x)) x y ->
  exists up lo P Q, extract_max_min_spline spl c (arange (length x)) x = Ok (up, lo, P, Q) /\ length y = length x /\
    (forall i, 0 <= i < zlen x -> sample y i = (sample x i - (sample up i + sample lo i) / Qc_ofZ 2)%Qc) /\
    (forall i, reported_max x i -> sample y i = ((sample x i - sample lo i) / Qc_ofZ 2)%Qc) /\
    (forall i, reported_min x i -> sample y i = ((sample x i - sample up i) / Qc_ofZ 2)%Qc).
Proof. intros spl c x y Hs. exact (sift_at_extrema spl Hs c x y). Qed.
Print Assumptions C84_sift.

(** The straight-line interpolation is an instance. *)
Example C84_passes : passes_through lin_spl.
Proof. exact lin_passes. Qed.

Definition late_rise : list Qc := qs [0; 2; 1; 9; 10; 0; 5; 0].
Example C84_nonvacuous :
  match extract_max_min_spline lin_spl demo_default (arange (length late_rise)) late_rise, sift_step lin_spl demo_default (arange (length late_rise)) late_rise with
  | Ok (up, lo, _, _), Ok (y, _, _) => sample up 1 = q 2 /\ sample up 4 = q 10 /\ sample lo 5 = q 0 /\ sample y 5 = ((q 0 - sample up 5) / q 2)%Qc
  | _, _ => False
  end /\ reported_max late_rise 4 /\ reported_min late_rise 5.
Proof.
  split.
  - vm_compute. repeat split; apply Qc_is_canon; reflexivity.
  - split; left; [exists 4, 4|exists 5, 5]; (split; [|split; [auto|left; reflexivity]]);
      (split; [lia|split; [cbn; lia|split; [intros k Hk; f_equal; lia|split; vm_compute; reflexivity]]]).
Qed.

(** Between the extrema an envelope need not bound the signal: the upper one can lie below it. *)
Theorem C84_above_refuted :
  exists spl c S up lo P Q i, passes_through spl /\ extrema_detection c = Simple /\ 1 <= nbsym c /\
    extract_max_min_spline spl c (arange (length S)) S = Ok (up, lo, P, Q) /\ 0 <= i < zlen S /\
    (sample up i < sample S i)%Qc.
Proof.
  exists lin_spl, demo_default, late_rise.
  destruct (extract_max_min_spline lin_spl demo_default (arange (length late_rise)) late_rise) as [[[[up lo] P] Q]|x] eqn:E.
  2:{ exfalso. apply (f_equal (fun r => match r with Ok _ => true | _ => false end)) in E. vm_compute in E. discriminate E. }
  exists up, lo, P, Q, 3. split; [exact lin_passes|]. split; [reflexivity|]. split; [vm_compute; discriminate|]. split; auto.
  split; [vm_compute; split; [discriminate|reflexivity]|].
  assert (G : match extract_max_min_spline lin_spl demo_default (arange (length late_rise)) late_rise with
    | Ok (u, _, _, _) => Qc_ltb (sample u 3) (sample late_rise 3) | _ => false end = true) by (vm_compute; reflexivity).
  rewrite E in G. apply Qc_ltb_lt. exact G.
Qed.
Print Assumptions C84_above_refuted.
