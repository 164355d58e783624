(** * Props_Checks: properties C47 and C48, the white noise significance test.
    [ppf] is the normal quantile function (scipy.stats.norm.ppf) and [peaks] the number of peaks
    (scipy.signal.find_peaks); both are arbitrary.  Arithmetic is on the reals, where math.exp
    raises OverflowError from 2^1024 on. *)
From Verif Require Import PyFacts Checks ChecksSpec ChecksProofs.
From Coq Require Import Reals Lra Lia.
From Coq Require Import String.
Open Scope Z_scope.
Local Notation length := List.length.

(** ** C47: every imf gets a verdict. *)
(** A priori: significant iff the energy lies outside the confidence band. *)
Theorem C47_apriori : forall (ppf : R -> R) (peaks : list R -> nat) rows N r a,
  rows <> [] -> (0 < N)%nat -> (INR N < 2 ^ 1024)%R -> Forall (good N) rows -> (0 < a < 1)%R -> 1 <= r <= zlen rows ->
  exists out, whitenoise_check ppf peaks (numbers rows) "apriori" (Some r) (Some a) = Ok (Some out) /\
    verdicts rows (fun _ row =>
      outside (Rabs (ppf ((1 - a) / 2)%R)) (INR N) (sum_squares row) (samples_per_peak N (peaks row))) out.
Proof. exact check_apriori. Qed.
Print Assumptions C47_apriori.
(** A posteriori: for the other imfs, significant iff above the band scaled on the reference. *)
Theorem C47_aposteriori : forall (ppf : R -> R) (peaks : list R -> nat) rows N r a ref,
  rows <> [] -> (0 < N)%nat -> (INR N < 2 ^ 1024)%R -> Forall (good N) rows -> (0 < a < 1)%R ->
  nth_error rows r = Some ref ->
  let k := Rabs (ppf ((1 - a) / 2)%R) in let P := samples_per_peak N (peaks ref) in
  (scaling k (INR N) P < 2 ^ 1024)%R ->
  exists out, whitenoise_check ppf peaks (numbers rows) "aposteriori" (Some (Z.of_nat r + 1)) (Some a) = Ok (Some out) /\
    verdicts rows (fun i row =>
      if Nat.eqb i r then (0 < k /\ 4 < P)%R
      else above_noise k (INR N) (sum_squares row) (samples_per_peak N (peaks row)) (scaling k (INR N) P)) out.
Proof. exact check_aposteriori. Qed.
Print Assumptions C47_aposteriori.
(** The bound on the scaling factor is met when the reference imf has a mean period P >= 1 with
    k sqrt(2/N) P/2 <= 640; beyond it the call raises OverflowError. *)
Theorem C47_scaling_bound : forall k N P, (1 <= P)%R -> (k * sqrt (2 / N) * P / 2 <= 640)%R ->
  (scaling k N P < 2 ^ 1024)%R.
Proof. exact scaling_bound. Qed.
Print Assumptions C47_scaling_bound.
Theorem C47_overflow : forall (ppf : R -> R) (peaks : list R -> nat) rows N r a ref,
  rows <> [] -> (0 < N)%nat -> (INR N < 2 ^ 1024)%R -> Forall (good N) rows -> (0 < a < 1)%R ->
  nth_error rows r = Some ref ->
  let k := Rabs (ppf ((1 - a) / 2)%R) in let P := samples_per_peak N (peaks ref) in
  (2 ^ 1024 <= scaling k (INR N) P)%R ->
  whitenoise_check ppf peaks (numbers rows) "aposteriori" (Some (Z.of_nat r + 1)) (Some a) = Raise OverflowError.
Proof. exact check_overflow. Qed.
Print Assumptions C47_overflow.
(** Empty input: None, whatever the other arguments. *)
Theorem C47_empty : forall (ppf : R -> R) (peaks : list R -> nat) rows t r a,
  rows = [] \/ (exists rest, rows = [] :: rest) -> whitenoise_check ppf peaks (Some rows) t r a = Ok None.
Proof. exact check_empty. Qed.
Print Assumptions C47_empty.
(** A NaN anywhere: None. *)
Theorem C47_nan : forall (ppf : R -> R) (peaks : list R -> nat) rows t r a first,
  valid_args (zlen rows) t r a -> nth_error rows 0 = Some first -> first <> [] ->
  (exists row, In row rows /\ In Nan row) -> whitenoise_check ppf peaks (Some rows) t r a = Ok None.
Proof. exact check_nan. Qed.
Print Assumptions C47_nan.
(** AssertionError exactly for inadmissible arguments (and for something that is no array). *)
Theorem C47_invalid : forall (ppf : R -> R) (peaks : list R -> nat) x first rest t r a,
  whitenoise_check ppf peaks (Some ((x :: first) :: rest)) t r a = Raise AssertionError <->
  ~ valid_args (zlen ((x :: first) :: rest)) t r a.
Proof. exact check_valid. Qed.
Print Assumptions C47_invalid.
Theorem C47_not_array : forall (ppf : R -> R) (peaks : list R -> nat) t r a,
  whitenoise_check ppf peaks None t r a = Raise AssertionError.
Proof. exact check_not_array. Qed.
Print Assumptions C47_not_array.
(** Raising the confidence level never makes an imf significant. *)
Theorem C47_confidence : forall (ppf : R -> R) (peaks : list R -> nat) rows N r a a' test out out',
  rows <> [] -> (0 < N)%nat -> (INR N < 2 ^ 1024)%R -> Forall (good N) rows -> (0 < a < 1)%R -> (0 < a' < 1)%R ->
  (0 < Rabs (ppf ((1 - a) / 2)%R) <= Rabs (ppf ((1 - a') / 2)%R))%R ->
  whitenoise_check ppf peaks (numbers rows) test r (Some a) = Ok (Some out) ->
  whitenoise_check ppf peaks (numbers rows) test r (Some a') = Ok (Some out') ->
  forall i v, nth_error out' i = Some (v, 1) -> nth_error out i = Some (v, 1).
Proof. exact check_confidence. Qed.
Print Assumptions C47_confidence.
(** "Every non-empty array without NaN gets its verdicts" fails: an imf that is zero everywhere
    makes the logarithm of its energy a ValueError, and a long signal without peaks an
    OverflowError. *)
Theorem C47_zero_row : forall (ppf : R -> R) (peaks : list R -> nat) rows N r a,
  (0 < N)%nat -> (INR N < 2 ^ 1024)%R -> Forall (fun row => length row = N) rows ->
  (exists row, In row rows /\ forall y, In y row -> y = 0%R) -> (0 < a < 1)%R -> 1 <= r <= zlen rows ->
  whitenoise_check ppf peaks (numbers rows) "apriori" (Some r) (Some a) = Raise ValueError.
Proof. exact check_zero_row. Qed.
Print Assumptions C47_zero_row.
Theorem C47_every_signal_refuted : exists (ppf : R -> R) (peaks : list R -> nat) row N,
  good N row /\ (INR N = 8000000)%R /\
  whitenoise_check ppf peaks (numbers [row]) "aposteriori" (Some 1) (Some (1/2)%R) = Raise OverflowError.
Proof.
  exists (fun _ => -1)%R, (fun _ => 0%nat), long_row, (2 * (long_m * long_m))%nat. split; [|split].
  - split; [apply repeat_length|]. unfold long_row. rewrite sum_squares_ones, long_N. lra.
  - exact long_N.
  - exact long_overflow.
Qed.
Print Assumptions C47_every_signal_refuted.
(** Non-vacuity: two imfs of four samples meet the hypotheses of both tests. *)
Definition two_imfs : list (list R) := [[1; -1; 1; -1]; [2; 1; -1; -2]]%R.
Example C47_nonvacuous :
  let ppf := fun _ : R => (-2)%R in let peaks := fun _ : list R => 2%nat in
  two_imfs <> [] /\ (INR 4 < 2 ^ 1024)%R /\ Forall (good 4) two_imfs /\ nth_error two_imfs 0 = Some [1; -1; 1; -1]%R /\
  (1 <= samples_per_peak 4 (peaks [1; -1; 1; -1]%R))%R /\
  (Rabs (ppf ((1 - 19/20) / 2)) * sqrt (2 / INR 4) * samples_per_peak 4 2 / 2 <= 640)%R /\
  valid_args (zlen two_imfs) "aposteriori" (Some 1) (Some (19/20)%R).
Proof.
  assert (HP : (samples_per_peak 4 2 = 2)%R) by (unfold samples_per_peak; simpl; lra).
  cbv zeta. split; [discriminate|]. split.
  { change (INR 4) with (INR (Z.to_nat 4)). rewrite INR_IZR_INZ, Z2Nat.id by lia. rewrite pow_IZR. apply IZR_lt. vm_compute. reflexivity. }
  split; [repeat constructor; unfold sum_squares; simpl; lra|]. split; [reflexivity|].
  split; [rewrite HP; lra|]. split.
  - rewrite HP. rewrite Rabs_left by lra.
    assert (sqrt (2 / INR 4) <= 1)%R. { replace 1%R with (sqrt 1) by apply sqrt_1. apply sqrt_le_1_alt. simpl. lra. } lra.
  - split; [exists (19/20)%R; split; [reflexivity|lra]|]. split; [auto|]. exists 1. split; auto. cbn. lia.
Qed.

(** ** C48: the imf used for rescaling.
    It is scaled onto the noise level, so it ought never to be significant.  The code computes
    exp(T)/2 (checks.py:119) where the spread is exp(T/2), and reports it as significant iff its
    mean period is above four. *)
Theorem C48_rescaling_imf : forall (ppf : R -> R) (peaks : list R -> nat) rows N r a ref out,
  rows <> [] -> (0 < N)%nat -> (INR N < 2 ^ 1024)%R -> Forall (good N) rows -> (0 < a < 1)%R ->
  nth_error rows r = Some ref -> (0 < Rabs (ppf ((1 - a) / 2)%R))%R ->
  whitenoise_check ppf peaks (numbers rows) "aposteriori" (Some (Z.of_nat r + 1)) (Some a) = Ok (Some out) ->
  nth_error out r = Some (Z.of_nat r + 1, if Rlt_dec 4 (samples_per_peak N (peaks ref)) then 1 else 0).
Proof. exact check_reference. Qed.
Print Assumptions C48_rescaling_imf.
Theorem C48_never_significant_refuted : exists (ppf : R -> R) (peaks : list R -> nat) row,
  good 5 row /\
  whitenoise_check ppf peaks (numbers [row]) "aposteriori" (Some 1) (Some (19/20)%R) = Ok (Some [(1, 1)]).
Proof. exact reference_significant. Qed.
Print Assumptions C48_never_significant_refuted.
(** It is not significant when the imf has a peak at least every four samples. *)
Theorem C48_short_period : forall (ppf : R -> R) (peaks : list R -> nat) rows N r a ref out,
  rows <> [] -> (0 < N)%nat -> (INR N < 2 ^ 1024)%R -> Forall (good N) rows -> (0 < a < 1)%R ->
  nth_error rows r = Some ref -> (N <= 4 * peaks ref)%nat ->
  whitenoise_check ppf peaks (numbers rows) "aposteriori" (Some (Z.of_nat r + 1)) (Some a) = Ok (Some out) ->
  nth_error out r = Some (Z.of_nat r + 1, 0).
Proof. exact check_short_period. Qed.
Print Assumptions C48_short_period.
(** Non-vacuity: the witness above for the positive verdict; a single imf with two peaks in four
    samples for the negative one. *)
Example C48_nonvacuous :
  whitenoise_check (fun _ => -2)%R (fun _ => 2%nat) (numbers [[1; -1; 1; -1]%R]) "aposteriori" (Some 1) (Some (19/20)%R)
    = Ok (Some [(1, 0)]).
Proof. exact reference_not_significant. Qed.
