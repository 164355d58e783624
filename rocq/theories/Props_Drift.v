(** * C108: an oscillation on top of a slow trend. *)
From Verif Require Import PyFacts QcFacts Emd Spec Demo EmdProofs EmdExact Kinds KindsSpec LocalSpec LocalProofs DriftSpec DriftProofs.
From Coq Require Import QArith Qcanon String List Lia.
Local Notation length := List.length.
Open Scope Z_scope.

(** From sample a to sample b the signal is an oscillation between h and - h plus a trend that changes less
    from sample to sample.  Where there are enough extrema on either side, one sift gives the oscillation:
    it takes away the whole of the trend and nothing else. *)
Theorem C108_sift :
  forall k c x w F h a b i y,
  extrema_detection c = Simple -> 1 <= nbsym c -> parse_kind (spline_kind c) = Some k ->
  0 <= a -> b < zlen x -> followed k F -> rides x w F a b -> swings w h a b -> steeper w F a b ->
  framed k (peak w) a b i -> framed k (trough w) a b i ->
  one_sift scipy_spl c (arange (length x)) x y -> sample y i = sample w i.
Proof. exact drift_sift. Qed.
Print Assumptions C108_sift.

(** Further sifts leave it as it is, so it is the first component under FIXE = n. *)
Theorem C108_first_component :
  forall k c n fuel x w F h mi o a b i,
  extrema_detection c = Simple -> 1 <= nbsym c -> parse_kind (spline_kind c) = Some k ->
  FIXE c = Z.of_nat n -> (0 < n)%nat -> FIXE c < MAX_ITERATION c ->
  0 <= a -> b < zlen x -> followed k F -> rides x w F a b -> swings w h a b -> steeper w F a b ->
  deep k n w a b i -> emd scipy_spl fuel c x None mi = Ok o -> imfs o <> [] ->
  sample (nth 0 (imfs o) []) i = sample w i.
Proof. exact drift_first. Qed.
Print Assumptions C108_first_component.

(** The signal h, - h, h, ... plus a trend that changes by less than 2 h from sample to sample: away from
    the ends by 2 samples per sift (4 for pchip and cubic_hermite), the first component is h, - h, h, ... *)
Theorem C108_alternating :
  forall k c n fuel x F h mi o i,
  extrema_detection c = Simple -> 1 <= nbsym c -> parse_kind (spline_kind c) = Some k ->
  FIXE c = Z.of_nat n -> (0 < n)%nat -> FIXE c < MAX_ITERATION c ->
  followed k F -> (0 < h)%Qc ->
  (forall j, 0 <= j < zlen x -> sample x j = (flip h j + value F (Qc_ofZ j))%Qc) ->
  (forall j, 0 <= j < zlen x - 1 ->
     let r := (value F (Qc_ofZ (j + 1)) - value F (Qc_ofZ j))%Qc in (- (h + h) < r /\ r < h + h)%Qc) ->
  Z.of_nat n * margin k <= i < zlen x - Z.of_nat n * margin k ->
  emd scipy_spl fuel c x None mi = Ok o -> imfs o <> [] ->
  sample (nth 0 (imfs o) []) i = flip h i.
Proof. exact flip_first. Qed.
Print Assumptions C108_alternating.

(** With a straight line for a trend: slope p, height q at the start. *)
Theorem C108_straight :
  forall k c n fuel x p q h mi o i,
  extrema_detection c = Simple -> 1 <= nbsym c -> parse_kind (spline_kind c) = Some k ->
  k = Linear \/ k = Slinear \/ k = Pchip \/ k = CubicHermite ->
  FIXE c = Z.of_nat n -> (0 < n)%nat -> FIXE c < MAX_ITERATION c ->
  (- (h + h) < p)%Qc -> (p < h + h)%Qc ->
  (forall j, 0 <= j < zlen x -> sample x j = (flip h j + (p * Qc_ofZ j + q))%Qc) ->
  Z.of_nat n * margin k <= i < zlen x - Z.of_nat n * margin k ->
  emd scipy_spl fuel c x None mi = Ok o -> imfs o <> [] ->
  sample (nth 0 (imfs o) []) i = flip h i /\
  sample (vsub x (nth 0 (imfs o) [])) i = (p * Qc_ofZ i + q)%Qc.
Proof.
  intros k c n fuel x p q h mi o i D N K Hk Fx Hn M1 P1 P2 Hx Hi E O.
  assert (V : forall u, value (Piece q p 0 0) u = (p * u + q)%Qc) by (intros u; unfold value; cbn [k0 k1 k2 k3]; ring).
  assert (G : sample (nth 0 (imfs o) []) i = flip h i).
  { apply (flip_first k c n fuel x (Piece q p 0 0) h mi o i); auto.
    - destruct Hk as [->|[->|[->| ->]]]; cbn; auto.
    - qclra.
    - intros j Hj. rewrite V. auto.
    - intros j Hj. cbv zeta. rewrite !V, Qc_ofZ_add. change (Qc_ofZ 1) with 1%Qc.
      replace (p * (Qc_ofZ j + 1) + q - (p * Qc_ofZ j + q))%Qc with p by ring. auto. }
  split; auto. apply (peeled_rest x (nth 0 (imfs o) []) i (flip h i)); auto.
  - pose proof (fixe_peels c n fuel x mi o D Fx Hn M1 E) as HP. inversion HP as [? EI|? l rest HI Ll HRe EI]; [congruence|].
    cbn [nth]. symmetry. apply (iterates_length c _ _ _ HI).
  - apply Hx. assert (0 < margin k) by (destruct k; cbn; lia). lia.
Qed.
Print Assumptions C108_straight.

(** ** Examples *)
Definition wave (N : nat) (h : Qc) (F : piece) : list Qc :=
  map (fun j => (flip h (Z.of_nat j) + value F (Qc_ofZ (Z.of_nat j)))%Qc) (seq 0 N).
Lemma wave_at N h F j : 0 <= j < Z.of_nat N -> sample (wave N h F) j = (flip h j + value F (Qc_ofZ j))%Qc.
Proof.
  intros Hj. unfold sample. apply nth_error_nth. unfold wave. rewrite nth_error_map.
  rewrite (nth_error_nth' (seq 0 N) 0%nat) by (rewrite seq_length; lia). rewrite seq_nth by lia. cbn [option_map]. replace (Z.of_nat (0 + Z.to_nat j)) with j by lia. reflexivity.
Qed.
Lemma wave_length N h F : zlen (wave N h F) = Z.of_nat N.
Proof. unfold wave, zlen. rewrite map_length, seq_length. reflexivity. Qed.
Definition drift_cfg (kind : string) (n : Z) : emd_config Qc :=
  MkCfg (nlit 2 10) (nlit 1 1000) (nlit 2 10) (nlit 5 1000) (nlit 1 1000) 2 kind Simple n 0 4.
Definition drift_run (kind : string) (n : Z) (x : list Qc) : res (emd_out Qc) := emd scipy_spl 10 (drift_cfg kind n) x None 1.
Definition drift_some (kind : string) (n : Z) (x : list Qc) : bool :=
  match drift_run kind n x with Ok o => negb (zlen (imfs o) =? 0) | Raise _ => false end.
Lemma drift_some_spec kind n x : drift_some kind n x = true -> exists o, drift_run kind n x = Ok o /\ imfs o <> [].
Proof.
  unfold drift_some. destruct (drift_run kind n x) as [o|]; [|discriminate]. intros H. exists o. split; auto.
  intros C. rewrite C in H. discriminate.
Qed.
(** 3, - 3, 3, ... on a line of slope 2 from 5; two sifts. *)
Definition uphill : piece := Piece (Qc_ofZ 5) (Qc_ofZ 2) 0 0.
Example C108_nonvacuous_straight :
  exists o, drift_run "linear" 2 (wave 11 (Qc_ofZ 3) uphill) = Ok o /\ imfs o <> [] /\
    sample (nth 0 (imfs o) []) 5 = (- Qc_ofZ 3)%Qc /\
    sample (vsub (wave 11 (Qc_ofZ 3) uphill) (nth 0 (imfs o) [])) 5 = Qc_ofZ 15.
Proof.
  destruct (drift_some_spec "linear" 2 (wave 11 (Qc_ofZ 3) uphill)) as (o & R & N); [vm_compute; reflexivity|].
  exists o. split; [exact R|]. split; [exact N|].
  assert (HX : forall j, 0 <= j < zlen (wave 11 (Qc_ofZ 3) uphill) ->
            sample (wave 11 (Qc_ofZ 3) uphill) j = (flip (Qc_ofZ 3) j + (Qc_ofZ 2 * Qc_ofZ j + Qc_ofZ 5))%Qc).
  { intros j Hj. rewrite wave_length in Hj. rewrite wave_at by lia. unfold value, uphill. cbn [k0 k1 k2 k3]. ring. }
  destruct (C108_straight Linear (drift_cfg "linear" 2) 2 10 _ (Qc_ofZ 2) (Qc_ofZ 5) (Qc_ofZ 3) 1 o 5
    eq_refl ltac:(cbn; lia) eq_refl (or_introl eq_refl) eq_refl ltac:(lia) ltac:(cbn; lia) ltac:(reflexivity) ltac:(reflexivity)
    HX ltac:(rewrite wave_length; cbn; lia) R N) as [G1 G2].
  split; [rewrite G1; reflexivity|rewrite G2; apply Qc_is_canon; reflexivity].
Qed.
(** On a parabola, with cubic_hermite. *)
Definition bowl : piece := Piece 0 0 (Q2Qc (1 # 10)) 0.
Example C108_nonvacuous_parabola :
  exists o, drift_run "cubic_hermite" 1 (wave 11 (Qc_ofZ 3) bowl) = Ok o /\ imfs o <> [] /\ followed CubicHermite bowl /\
    sample (nth 0 (imfs o) []) 5 = (- Qc_ofZ 3)%Qc.
Proof.
  destruct (drift_some_spec "cubic_hermite" 1 (wave 11 (Qc_ofZ 3) bowl)) as (o & R & N); [vm_compute; reflexivity|].
  exists o. split; [exact R|]. split; [exact N|]. split; [reflexivity|].
  apply (C108_alternating CubicHermite (drift_cfg "cubic_hermite" 1) 1 10 (wave 11 (Qc_ofZ 3) bowl) bowl (Qc_ofZ 3) 1 o 5
    eq_refl ltac:(cbn; lia) eq_refl eq_refl ltac:(lia) ltac:(cbn; lia) eq_refl ltac:(reflexivity)); auto.
  - intros j Hj. rewrite wave_length in Hj. apply wave_at. lia.
  - intros j Hj. rewrite wave_length in Hj. cbv zeta.
    assert (H : j = 0 \/ j = 1 \/ j = 2 \/ j = 3 \/ j = 4 \/ j = 5 \/ j = 6 \/ j = 7 \/ j = 8 \/ j = 9) by lia.
    destruct H as [->|[->|[->|[->|[->|[->|[->|[->|[->| ->]]]]]]]]]; split; vm_compute; reflexivity.
  - rewrite wave_length. cbn. lia.
Qed.

(** ** What does not hold *)
Definition drift_at (kind : string) (x : list Qc) (i : nat) : bool :=
  match drift_run kind 1 x with Ok o => negb (zlen (imfs o) =? 0) && negb (Qc_eqb (nth i (nth 0 (imfs o) []) 0%Qc) (flip (Qc_ofZ 3) (Z.of_nat i))) | Raise _ => false end.
Lemma drift_at_spec kind x i : drift_at kind x i = true ->
  exists o, drift_run kind 1 x = Ok o /\ imfs o <> [] /\ sample (nth 0 (imfs o) []) (Z.of_nat i) <> flip (Qc_ofZ 3) (Z.of_nat i).
Proof.
  unfold drift_at. destruct (drift_run kind 1 x) as [o|]; [|discriminate]. intros H. apply Bool.andb_true_iff in H as [H1 H2].
  exists o. split; auto. split; [intros C; rewrite C in H1; discriminate|]. unfold sample. rewrite Nat2Z.id. intros C. rewrite C in H2.
  rewrite (proj2 (Qc_eqb_eq _ _) eq_refl) in H2. discriminate.
Qed.
(** At the ends the mirrored extrema bend the envelopes of a straight line. *)
Theorem C108_ends_refuted :
  exists c x o, parse_kind (spline_kind c) = Some Linear /\ extrema_detection c = Simple /\ 1 <= nbsym c /\ FIXE c = 1 /\
    (forall j, 0 <= j < zlen x -> sample x j = (flip (Qc_ofZ 3) j + value uphill (Qc_ofZ j))%Qc) /\
    emd scipy_spl 10 c x None 1 = Ok o /\ imfs o <> [] /\ sample (nth 0 (imfs o) []) 0 <> flip (Qc_ofZ 3) 0.
Proof.
  destruct (drift_at_spec "linear" (wave 11 (Qc_ofZ 3) uphill) 0) as (o & R & N & G); [vm_compute; reflexivity|].
  exists (drift_cfg "linear" 1), (wave 11 (Qc_ofZ 3) uphill), o. split; [reflexivity|]. split; [reflexivity|]. split; [cbn; lia|]. split; [reflexivity|].
  split; [intros j Hj; rewrite wave_length in Hj; apply wave_at; lia|]. split; [exact R|]. split; [exact N|exact G].
Qed.
Print Assumptions C108_ends_refuted.
(** The cubic spline carries the bend from the ends into the middle. *)
Theorem C108_cubic_refuted :
  exists c x o, parse_kind (spline_kind c) = Some Cubic /\ extrema_detection c = Simple /\ 1 <= nbsym c /\ FIXE c = 1 /\ zlen x = 11 /\
    (forall j, 0 <= j < zlen x -> sample x j = (flip (Qc_ofZ 3) j + value uphill (Qc_ofZ j))%Qc) /\
    emd scipy_spl 10 c x None 1 = Ok o /\ imfs o <> [] /\ sample (nth 0 (imfs o) []) 4 <> flip (Qc_ofZ 3) 4.
Proof.
  destruct (drift_at_spec "cubic" (wave 11 (Qc_ofZ 3) uphill) 4) as (o & R & N & G); [vm_compute; reflexivity|].
  exists (drift_cfg "cubic" 1), (wave 11 (Qc_ofZ 3) uphill), o. split; [reflexivity|]. split; [reflexivity|]. split; [cbn; lia|]. split; [reflexivity|].
  split; [reflexivity|]. split; [intros j Hj; rewrite wave_length in Hj; apply wave_at; lia|]. split; [exact R|]. split; [exact N|exact G].
Qed.
Print Assumptions C108_cubic_refuted.
(** A parabola is not followed by straight-line envelopes. *)
Theorem C108_parabola_refuted :
  exists c x o, parse_kind (spline_kind c) = Some Linear /\ extrema_detection c = Simple /\ 1 <= nbsym c /\ FIXE c = 1 /\ zlen x = 11 /\
    (forall j, 0 <= j < zlen x -> sample x j = (flip (Qc_ofZ 3) j + value bowl (Qc_ofZ j))%Qc) /\
    emd scipy_spl 10 c x None 1 = Ok o /\ imfs o <> [] /\ sample (nth 0 (imfs o) []) 5 <> flip (Qc_ofZ 3) 5.
Proof.
  destruct (drift_at_spec "linear" (wave 11 (Qc_ofZ 3) bowl) 5) as (o & R & N & G); [vm_compute; reflexivity|].
  exists (drift_cfg "linear" 1), (wave 11 (Qc_ofZ 3) bowl), o. split; [reflexivity|]. split; [reflexivity|]. split; [cbn; lia|]. split; [reflexivity|].
  split; [reflexivity|]. split; [intros j Hj; rewrite wave_length in Hj; apply wave_at; lia|]. split; [exact R|]. split; [exact N|exact G].
Qed.
Print Assumptions C108_parabola_refuted.
