(** * Props_ChecksLevel: property C115, the white noise test and the level of the imfs.

    [ppf], [peaks]: as in Props_Checks.v.  [good], [numbers], [samples_per_peak], [scaling] are in ChecksSpec.v,
    [amplified], [level_free], [says] in ChecksLevelSpec.v.  [scaling ... < 2 ^ 1024]: no OverflowError (C47_overflow). *)
From Verif Require Import PyFacts Checks ChecksSpec ChecksLevelSpec ChecksProofs ChecksLevel.
From Coq Require Import Reals Lra Lia.
From Coq Require Import String.
Open Scope Z_scope.
Local Notation length := List.length.

(** A posteriori: only the number of peaks of the reference imf matters.  Another imf in its place, louder or softer or
    different altogether, gives the same outcome. *)
Theorem C115_reference : forall (ppf : R -> R) (peaks : list R -> nat) rows rows' N r a ref ref',
  (0 < N)%nat -> (INR N < 2 ^ 1024)%R -> Forall (good N) rows -> Forall (good N) rows' -> (0 < a < 1)%R ->
  nth_error rows r = Some ref -> nth_error rows' r = Some ref' -> peaks ref' = peaks ref ->
  (forall i, i <> r -> nth_error rows' i = nth_error rows i) ->
  whitenoise_check ppf peaks (numbers rows') "aposteriori" (Some (Z.of_nat r + 1)) (Some a) =
  whitenoise_check ppf peaks (numbers rows) "aposteriori" (Some (Z.of_nat r + 1)) (Some a).
Proof. exact reference_level. Qed.
Print Assumptions C115_reference.

(** So a posteriori the verdicts are not relative to the reference: with the whole array times c every other imf is
    significant exactly for c above some level. *)
Theorem C115_aposteriori : forall (ppf : R -> R) (peaks : list R -> nat) rows N r a ref i row,
  (0 < N)%nat -> (INR N < 2 ^ 1024)%R -> Forall (good N) rows -> (0 < a < 1)%R -> level_free peaks rows ->
  nth_error rows r = Some ref ->
  (scaling (Rabs (ppf ((1 - a) / 2))) (INR N) (samples_per_peak N (peaks ref)) < 2 ^ 1024)%R ->
  i <> r -> nth_error rows i = Some row ->
  exists c0, (0 < c0)%R /\ forall c, (0 < c)%R -> exists out,
    whitenoise_check ppf peaks (numbers (amplified c rows)) "aposteriori" (Some (Z.of_nat r + 1)) (Some a) = Ok (Some out) /\
    ((c0 < c)%R /\ says out i 1 \/ (c <= c0)%R /\ says out i 0).
Proof. exact level_aposteriori. Qed.
Print Assumptions C115_aposteriori.

(** A priori an imf is significant exactly for levels outside some band. *)
Theorem C115_apriori : forall (ppf : R -> R) (peaks : list R -> nat) rows N r a i row,
  (0 < N)%nat -> (INR N < 2 ^ 1024)%R -> Forall (good N) rows -> (0 < a < 1)%R -> level_free peaks rows ->
  1 <= r <= zlen rows -> nth_error rows i = Some row ->
  exists c0 c1, (0 < c0 <= c1)%R /\ forall c, (0 < c)%R -> exists out,
    whitenoise_check ppf peaks (numbers (amplified c rows)) "apriori" (Some r) (Some a) = Ok (Some out) /\
    ((c < c0 \/ c1 < c)%R /\ says out i 1 \/ (c0 <= c <= c1)%R /\ says out i 0).
Proof. exact level_apriori. Qed.
Print Assumptions C115_apriori.

(** A priori the verdict on an imf depends on nothing but this imf and the confidence level: not on its place, the other
    imfs or rescaling_imf. *)
Theorem C115_own_row : forall (ppf : R -> R) (peaks : list R -> nat) rows rows' N r r' a i i' row out out',
  (0 < N)%nat -> (INR N < 2 ^ 1024)%R -> Forall (good N) rows -> Forall (good N) rows' -> (0 < a < 1)%R ->
  1 <= r <= zlen rows -> 1 <= r' <= zlen rows' -> nth_error rows i = Some row -> nth_error rows' i' = Some row ->
  whitenoise_check ppf peaks (numbers rows) "apriori" (Some r) (Some a) = Ok (Some out) ->
  whitenoise_check ppf peaks (numbers rows') "apriori" (Some r') (Some a) = Ok (Some out') ->
  exists v, says out i v /\ says out' i' v.
Proof. exact own_row. Qed.
Print Assumptions C115_own_row.

(** ** Example: two imfs of four samples with two peaks each *)
Definition pair_imfs : list (list R) := [[1; -1; 1; -1]; [2; -1; 1; -2]]%R.
Definition two_peaks : list R -> nat := fun _ => 2%nat.
Definition minus_two : R -> R := fun _ => (-2)%R.
Example C115_nonvacuous : (INR 4 < 2 ^ 1024)%R /\ Forall (good 4) pair_imfs /\ Forall (good 4) [[3; -3; 3; -3]; [2; -1; 1; -2]]%R /\
  level_free two_peaks pair_imfs /\ (scaling (Rabs (minus_two ((1 - 19 / 20) / 2))) (INR 4) (samples_per_peak 4 (two_peaks [1; -1; 1; -1])) < 2 ^ 1024)%R.
Proof.
  assert (HP : (samples_per_peak 4 2 = 2)%R) by (unfold samples_per_peak; simpl; lra).
  split. { change (INR 4) with (INR (Z.to_nat 4)). rewrite INR_IZR_INZ, Z2Nat.id by lia. rewrite pow_IZR. apply IZR_lt. vm_compute. reflexivity. }
  split; [repeat constructor; unfold sum_squares; simpl; lra|]. split; [repeat constructor; unfold sum_squares; simpl; lra|].
  split; [intros c row _ _; reflexivity|]. unfold two_peaks, minus_two. apply scaling_bound; rewrite HP; [lra|]. rewrite Rabs_left by lra.
  assert (sqrt (2 / INR 4) <= 1)%R. { replace 1%R with (sqrt 1) by apply sqrt_1. apply sqrt_le_1_alt. simpl. lra. } lra.
Qed.
(** "A posteriori verdicts do not change when all imfs are multiplied by the same number" fails. *)
Theorem C115_common_factor_refuted : exists (ppf : R -> R) (peaks : list R -> nat) rows c out out',
  (0 < c)%R /\ level_free peaks rows /\
  whitenoise_check ppf peaks (numbers rows) "aposteriori" (Some 1) (Some (19 / 20)%R) = Ok (Some out) /\
  whitenoise_check ppf peaks (numbers (amplified c rows)) "aposteriori" (Some 1) (Some (19 / 20)%R) = Ok (Some out') /\ out <> out'.
Proof.
  destruct C115_nonvacuous as (H1 & H2 & _ & H3 & H4).
  destruct (C115_aposteriori minus_two two_peaks pair_imfs 4 0 (19 / 20)%R _ 1 _ ltac:(lia) H1 H2 ltac:(lra) H3 eq_refl H4 ltac:(lia) eq_refl) as (c0 & P0 & HC).
  destruct (HC c0 P0) as (out & E & V). destruct (HC (2 * c0)%R ltac:(lra)) as (out' & E' & V').
  exists minus_two, two_peaks, (amplified c0 pair_imfs), 2%R, out, out'. split; [lra|]. split; [intros c row _ _; reflexivity|]. split; [exact E|]. split.
  - rewrite <- E'. unfold amplified. rewrite map_map. do 2 f_equal. apply map_ext. intros l. rewrite map_map. apply map_ext. intros x. ring.
  - intros ->. destruct V as [[X _]|[_ V]]; [lra|]. destruct V' as [[_ V']|[X _]]; [|lra]. unfold says in *. congruence.
Qed.
Print Assumptions C115_common_factor_refuted.
