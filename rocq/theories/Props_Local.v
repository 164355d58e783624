(** * C106: how far a change in the signal reaches. *)
From Verif Require Import PyFacts QcFacts Emd Spec Demo EmdProofs Kinds LocalSpec LocalProofs.
From Coq Require Import QArith Qcanon String List Lia.
Local Notation length := List.length.
Open Scope Z_scope.

(** Two signals that agree on a stretch without flat steps are sifted to the same value at every place of
    it that is framed by peaks and by troughs: one on each side for straight lines, two for pchip and
    cubic_hermite.  The signals may have different lengths, and the two configurations need only share the
    kind of envelope: the number of mirrored extrema may differ. *)
Theorem C106_sift :
  forall k c c' x x' a b i y y',
  extrema_detection c = Simple -> extrema_detection c' = Simple -> 1 <= nbsym c -> 1 <= nbsym c' ->
  parse_kind (spline_kind c) = Some k -> parse_kind (spline_kind c') = Some k ->
  0 <= a -> b < zlen x -> b < zlen x' -> agree x x' a b -> no_flat x a b ->
  framed k (peak x) a b i -> framed k (trough x) a b i ->
  one_sift scipy_spl c (arange (length x)) x y -> one_sift scipy_spl c' (arange (length x')) x' y' ->
  sample y i = sample y' i.
Proof. exact sift_local. Qed.
Print Assumptions C106_sift.

(** Appending samples. *)
Theorem C106_append :
  forall k c x z i y y',
  extrema_detection c = Simple -> 1 <= nbsym c -> parse_kind (spline_kind c) = Some k ->
  no_flat x 0 (zlen x - 1) ->
  framed k (peak x) 0 (zlen x - 1) i -> framed k (trough x) 0 (zlen x - 1) i ->
  one_sift scipy_spl c (arange (length x)) x y ->
  one_sift scipy_spl c (arange (length (x ++ z))) (x ++ z) y' ->
  sample y i = sample y' i.
Proof.
  intros k c x z i y y' D N K HF F1 F2 H1 H2.
  apply (sift_local k c c x (x ++ z) 0 (zlen x - 1) i y y'); auto; try lia; unfold zlen in *.
  - rewrite app_length. lia.
  - intros j Hj. unfold sample. rewrite app_nth1 by lia. reflexivity.
Qed.
Print Assumptions C106_append.

(** The number of mirrored extrema. *)
Theorem C106_nbsym :
  forall k c c' x i y y',
  extrema_detection c = Simple -> extrema_detection c' = Simple -> 1 <= nbsym c -> 1 <= nbsym c' ->
  parse_kind (spline_kind c) = Some k -> parse_kind (spline_kind c') = Some k ->
  no_flat x 0 (zlen x - 1) ->
  framed k (peak x) 0 (zlen x - 1) i -> framed k (trough x) 0 (zlen x - 1) i ->
  one_sift scipy_spl c (arange (length x)) x y -> one_sift scipy_spl c' (arange (length x)) x y' ->
  sample y i = sample y' i.
Proof.
  intros k c c' x i y y' D D' N N' K K' HF F1 F2 H1 H2.
  apply (sift_local k c c' x x 0 (zlen x - 1) i y y'); auto; try lia. intros j _. reflexivity.
Qed.
Print Assumptions C106_nbsym.

(** Sifting n times, hence the first component under FIXE = n. *)
Theorem C106_first_component :
  forall k c c' n fuel fuel' x x' mi mi' o o' a b i,
  extrema_detection c = Simple -> extrema_detection c' = Simple -> 1 <= nbsym c -> 1 <= nbsym c' ->
  parse_kind (spline_kind c) = Some k -> parse_kind (spline_kind c') = Some k ->
  FIXE c = Z.of_nat n -> FIXE c' = Z.of_nat n -> (0 < n)%nat ->
  FIXE c < MAX_ITERATION c -> FIXE c' < MAX_ITERATION c' ->
  0 <= a -> b < zlen x -> b < zlen x' -> agree x x' a b -> shielded c k n x a b i ->
  emd scipy_spl fuel c x None mi = Ok o -> emd scipy_spl fuel' c' x' None mi' = Ok o' ->
  imfs o <> [] -> imfs o' <> [] ->
  sample (nth 0 (imfs o) []) i = sample (nth 0 (imfs o') []) i.
Proof. exact first_local. Qed.
Print Assumptions C106_first_component.

(** And any component under FIXE = n. *)
Theorem C106_component :
  forall k c c' n m fuel fuel' x x' mi mi' o o' a b i,
  extrema_detection c = Simple -> extrema_detection c' = Simple -> 1 <= nbsym c -> 1 <= nbsym c' ->
  parse_kind (spline_kind c) = Some k -> parse_kind (spline_kind c') = Some k ->
  FIXE c = Z.of_nat n -> FIXE c' = Z.of_nat n -> (0 < n)%nat ->
  FIXE c < MAX_ITERATION c -> FIXE c' < MAX_ITERATION c' ->
  0 <= a -> b < zlen x -> b < zlen x' -> agree x x' a b -> shielded_part c k n m x a b i ->
  emd scipy_spl fuel c x None mi = Ok o -> emd scipy_spl fuel' c' x' None mi' = Ok o' ->
  (m < length (imfs o))%nat -> (m < length (imfs o'))%nat ->
  sample (nth m (imfs o) []) i = sample (nth m (imfs o') []) i.
Proof. exact component_local. Qed.
Print Assumptions C106_component.

(** ** Examples: the first eleven samples agree. *)
Definition local_x : list Qc := qs [0; 3; -2; 4; -1; 5; -3; 2; -2; 3; 0].
Definition local_z : list Qc := qs [7; -9; 1].
Definition local_x' : list Qc := local_x ++ local_z.
Definition local_cfg (kind : string) (nb fixe : Z) : emd_config Qc :=
  MkCfg (nlit 2 10) (nlit 1 1000) (nlit 2 10) (nlit 5 1000) (nlit 1 1000) nb kind Simple fixe 0 4.
Definition sifted (kind : string) (nb : Z) (x : list Qc) : list Qc :=
  match sift_step scipy_spl (local_cfg kind nb 1) (arange (length x)) x with Ok (y, _, _) => y | Raise _ => [] end.
Definition sifts (kind : string) (nb : Z) (x : list Qc) : bool :=
  match sift_step scipy_spl (local_cfg kind nb 1) (arange (length x)) x with Ok _ => true | Raise _ => false end.
Lemma sifts_spec kind nb x : sifts kind nb x = true ->
  one_sift scipy_spl (local_cfg kind nb 1) (arange (length x)) x (sifted kind nb x).
Proof.
  unfold sifts, sifted, one_sift. destruct (sift_step scipy_spl (local_cfg kind nb 1) (arange (length x)) x) as [[[y e] e']|]; [|discriminate].
  intros _. exists e, e'. reflexivity.
Qed.

(** A finite check for the absence of flat steps. *)
Definition flat_free (x : list Qc) (a b : Z) : bool :=
  forallb (fun k => let j := a + Z.of_nat k in negb (Qc_eqb (sample x j) (sample x (j + 1)))) (seq 0 (Z.to_nat (b - a))).
Lemma flat_free_spec x a b : flat_free x a b = true -> no_flat x a b.
Proof.
  unfold flat_free. rewrite forallb_forall. intros H j Hj C.
  specialize (H (Z.to_nat (j - a))). rewrite in_seq in H. specialize (H ltac:(lia)). cbv zeta in H.
  replace (a + Z.of_nat (Z.to_nat (j - a))) with j in H by lia. rewrite C in H.
  rewrite (proj2 (Qc_eqb_eq _ _) eq_refl) in H. discriminate.
Qed.
Lemma local_agree : agree local_x local_x' 0 10.
Proof. intros j Hj. unfold sample, local_x'. rewrite app_nth1; [reflexivity|]. change (length local_x) with 11%nat. lia. Qed.
Ltac extremum := split; vm_compute; reflexivity.

Example C106_nonvacuous_pchip :
  one_sift scipy_spl (local_cfg "pchip" 2 1) (arange (length local_x)) local_x (sifted "pchip" 2 local_x) /\
  one_sift scipy_spl (local_cfg "PCHIP" 1 1) (arange (length local_x')) local_x' (sifted "PCHIP" 1 local_x') /\
  no_flat local_x 0 10 /\ agree local_x local_x' 0 10 /\
  framed Pchip (peak local_x) 0 10 5 /\ framed Pchip (trough local_x) 0 10 5 /\
  sample (sifted "pchip" 2 local_x) 5 = sample (sifted "PCHIP" 1 local_x') 5 /\
  sample (sifted "pchip" 2 local_x) 8 <> sample (sifted "PCHIP" 1 local_x') 8.
Proof.
  split; [apply sifts_spec; vm_compute; reflexivity|]. split; [apply sifts_spec; vm_compute; reflexivity|].
  assert (F : no_flat local_x 0 10) by (apply flat_free_spec; vm_compute; reflexivity). split; [exact F|].
  split; [exact local_agree|].
  assert (F1 : framed Pchip (peak local_x) 0 10 5).
  { exists 3, 5, 5, 7. split; [lia|]. split; [lia|]. split; [lia|]. split; [|split; [|split]]; extremum. }
  assert (F2 : framed Pchip (trough local_x) 0 10 5).
  { exists 2, 4, 6, 8. split; [lia|]. split; [lia|]. split; [lia|]. split; [|split; [|split]]; extremum. }
  split; [exact F1|]. split; [exact F2|]. split.
  - apply (C106_sift Pchip (local_cfg "pchip" 2 1) (local_cfg "PCHIP" 1 1) local_x local_x' 0 10 5);
      try reflexivity; try (cbn; lia); try exact local_agree; try exact F; try exact F1; try exact F2;
      apply sifts_spec; vm_compute; reflexivity.
  - intros C. apply (f_equal this) in C. vm_compute in C. discriminate.
Qed.

(** Straight lines, two sifts: the place 5 is shielded, and the first components of the two runs agree there. *)
Lemma local_shielded : shielded (local_cfg "linear" 2 2) Linear 2 local_x 0 10 5.
Proof.
  split; [apply flat_free_spec; vm_compute; reflexivity|].
  intros y (e & e' & E).
  assert (Ey : y = sifted "linear" 2 local_x).
  { unfold sifted. change (sift_step scipy_spl (local_cfg "linear" 2 1) (arange (length local_x)) local_x)
      with (sift_step scipy_spl (local_cfg "linear" 2 2) (arange (length local_x)) local_x). rewrite E. reflexivity. }
  subst y. exists 2, 8. split; [lia|]. split.
  - intros j Hj. split.
    + exists (if j <? 3 then 1 else if j <? 5 then 3 else if j <? 7 then 5 else 7), 9.
      assert (H : j = 2 \/ j = 3 \/ j = 4 \/ j = 5 \/ j = 6 \/ j = 7 \/ j = 8) by lia.
      destruct H as [->|[->|[->|[->|[->|[->| ->]]]]]]; (split; [cbn; lia|]); (split; [lia|]); split; extremum.
    + exists 2, 8. split; [lia|]. split; [lia|]. split; extremum.
  - split; [apply flat_free_spec; vm_compute; reflexivity|]. intros y' _. exists 4, 6. split; [lia|]. split.
    + intros j Hj. split.
      * exists 3, 7. split; [lia|]. split; [lia|]. split; extremum.
      * exists 4, 6. split; [lia|]. split; [lia|]. split; extremum.
    + cbn [shielded]. lia.
Qed.
Definition local_run (x : list Qc) : res (emd_out Qc) := emd scipy_spl 10 (local_cfg "linear" 2 2) x None 1.
Definition local_first (x : list Qc) : list Qc := match local_run x with Ok o => nth 0 (imfs o) [] | Raise _ => [] end.
Definition local_some (x : list Qc) : bool := match local_run x with Ok o => negb (zlen (imfs o) =? 0) | Raise _ => false end.
Lemma local_some_spec x : local_some x = true -> exists o, local_run x = Ok o /\ imfs o <> [] /\ local_first x = nth 0 (imfs o) [].
Proof.
  unfold local_some, local_first. destruct (local_run x) as [o|]; [|discriminate]. intros H. exists o. split; auto. split; auto.
  intros C. rewrite C in H. discriminate.
Qed.
Example C106_nonvacuous_first :
  local_some local_x = true /\ local_some local_x' = true /\
  shielded (local_cfg "linear" 2 2) Linear 2 local_x 0 10 5 /\
  sample (local_first local_x) 5 = sample (local_first local_x') 5.
Proof.
  assert (E : local_some local_x = true) by (vm_compute; reflexivity).
  assert (E' : local_some local_x' = true) by (vm_compute; reflexivity).
  split; [exact E|]. split; [exact E'|]. split; [exact local_shielded|].
  destruct (local_some_spec _ E) as (o & R & N & ->). destruct (local_some_spec _ E') as (o' & R' & N' & ->).
  exact (C106_first_component Linear (local_cfg "linear" 2 2) (local_cfg "linear" 2 2) 2 10 10 local_x local_x' 1 1 o o' 0 10 5
    eq_refl eq_refl ltac:(cbn; lia) ltac:(cbn; lia) eq_refl eq_refl eq_refl eq_refl ltac:(lia) ltac:(cbn; lia) ltac:(cbn; lia)
    ltac:(lia) eq_refl eq_refl local_agree local_shielded R R' N N').
Qed.

(** Sample 5 of the second component, one sift each. *)
Definition part_x : list Qc := qs [0; -2; 14; -13; 23; -6; 6; 0; 7; -7; 5; -8; 22].
Definition part_x' : list Qc := part_x ++ local_z.
Definition part_left : list Qc := vsub part_x (sifted "linear" 2 part_x).
Lemma part_shielded : shielded_part (local_cfg "linear" 2 1) Linear 1 1 part_x 0 12 5.
Proof.
  exists 2, 10. split; [lia|]. split; [lia|]. split.
  - intros j Hj. split; [apply flat_free_spec; vm_compute; reflexivity|]. intros y _. exists 2, 10. split; [lia|]. split.
    + intros i Hi. split.
      * exists 2, 10. split; [lia|]. split; [lia|]. split; extremum.
      * exists 1, 11. split; [lia|]. split; [lia|]. split; extremum.
    + cbn [shielded]. lia.
  - intros l HI Ll. destruct l as [|y [|? ?]]; try discriminate. inversion HI as [|? ? ? (e & e' & E) _]; subst. cbn [last].
    assert (Ey : y = sifted "linear" 2 part_x) by (unfold sifted; rewrite E; reflexivity). subst y.
    fold part_left. split; [apply flat_free_spec; vm_compute; reflexivity|]. intros y _. exists 4, 6. split; [lia|]. split.
    + intros i Hi. split.
      * exists 4, 7. split; [lia|]. split; [lia|]. split; extremum.
      * exists 3, 6. split; [lia|]. split; [lia|]. split; extremum.
    + cbn [shielded]. lia.
Qed.
Definition part_run (x : list Qc) : res (emd_out Qc) := emd scipy_spl 10 (local_cfg "linear" 2 1) x None (-1).
Definition part_two (x : list Qc) : bool := match part_run x with Ok o => Nat.ltb 1 (length (imfs o)) | Raise _ => false end.
Lemma part_two_spec x : part_two x = true -> exists o, part_run x = Ok o /\ (1 < length (imfs o))%nat.
Proof.
  unfold part_two. destruct (part_run x) as [o|]; [|discriminate]. intros H. exists o. split; auto. apply Nat.ltb_lt. exact H.
Qed.
Lemma part_agree : agree part_x part_x' 0 12.
Proof. intros j Hj. unfold sample, part_x'. rewrite app_nth1; [reflexivity|]. change (length part_x) with 13%nat. lia. Qed.
Example C106_nonvacuous_component :
  exists o o', part_run part_x = Ok o /\ part_run part_x' = Ok o' /\
    (1 < length (imfs o))%nat /\ (1 < length (imfs o'))%nat /\ agree part_x part_x' 0 12 /\
    shielded_part (local_cfg "linear" 2 1) Linear 1 1 part_x 0 12 5 /\
    sample (nth 1 (imfs o) []) 5 = sample (nth 1 (imfs o') []) 5.
Proof.
  destruct (part_two_spec part_x) as (o & R & N); [vm_compute; reflexivity|].
  destruct (part_two_spec part_x') as (o' & R' & N'); [vm_compute; reflexivity|].
  exists o, o'. split; [exact R|]. split; [exact R'|]. split; [exact N|]. split; [exact N'|]. split; [exact part_agree|].
  split; [exact part_shielded|].
  exact (C106_component Linear (local_cfg "linear" 2 1) (local_cfg "linear" 2 1) 1 1 10 10 part_x part_x' (-1) (-1) o o' 0 12 5
    eq_refl eq_refl ltac:(cbn; lia) ltac:(cbn; lia) eq_refl eq_refl eq_refl eq_refl ltac:(lia) ltac:(cbn; lia) ltac:(cbn; lia)
    ltac:(lia) eq_refl eq_refl part_agree part_shielded R R' N N').
Qed.

(** ** What does not hold *)
(** The cubic spline is not local: framed as well as for pchip, the value still changes. *)
Theorem C106_cubic_refuted :
  exists c x x' a b i y y', extrema_detection c = Simple /\ 1 <= nbsym c /\ parse_kind (spline_kind c) = Some Cubic /\
    0 <= a /\ b < zlen x /\ b < zlen x' /\ agree x x' a b /\ no_flat x a b /\
    framed2 (peak x) a b i /\ framed2 (trough x) a b i /\
    one_sift scipy_spl c (arange (length x)) x y /\ one_sift scipy_spl c (arange (length x')) x' y' /\
    sample y i <> sample y' i.
Proof.
  exists (local_cfg "cubic" 2 1), local_x, local_x', 0, 10, 5, (sifted "cubic" 2 local_x), (sifted "cubic" 2 local_x').
  split; [reflexivity|]. split; [cbn; lia|]. split; [reflexivity|]. split; [lia|]. split; [reflexivity|]. split; [reflexivity|].
  split; [exact local_agree|]. split; [apply flat_free_spec; vm_compute; reflexivity|].
  split. { exists 3, 5, 5, 7. split; [lia|]. split; [lia|]. split; [lia|]. split; [|split; [|split]]; extremum. }
  split. { exists 2, 4, 6, 8. split; [lia|]. split; [lia|]. split; [lia|]. split; [|split; [|split]]; extremum. }
  split; [apply sifts_spec; vm_compute; reflexivity|]. split; [apply sifts_spec; vm_compute; reflexivity|].
  intros C. apply (f_equal this) in C. vm_compute in C. discriminate.
Qed.
Print Assumptions C106_cubic_refuted.

(** With straight lines a place inside the stretch, but after its last trough, is not safe. *)
Theorem C106_unframed_refuted :
  exists c x x' a b i y y', extrema_detection c = Simple /\ 1 <= nbsym c /\ parse_kind (spline_kind c) = Some Linear /\
    0 <= a /\ b < zlen x /\ b < zlen x' /\ agree x x' a b /\ no_flat x a b /\ a < i < b /\
    framed1 (peak x) a b i /\
    one_sift scipy_spl c (arange (length x)) x y /\ one_sift scipy_spl c (arange (length x')) x' y' /\
    sample y i <> sample y' i.
Proof.
  exists (local_cfg "linear" 2 1), local_x, local_x', 0, 10, 9, (sifted "linear" 2 local_x), (sifted "linear" 2 local_x').
  split; [reflexivity|]. split; [cbn; lia|]. split; [reflexivity|]. split; [lia|]. split; [reflexivity|]. split; [reflexivity|].
  split; [exact local_agree|]. split; [apply flat_free_spec; vm_compute; reflexivity|]. split; [lia|].
  split. { exists 9, 9. split; [lia|]. split; [lia|]. split; extremum. }
  split; [apply sifts_spec; vm_compute; reflexivity|]. split; [apply sifts_spec; vm_compute; reflexivity|].
  intros C. apply (f_equal this) in C. vm_compute in C. discriminate.
Qed.
Print Assumptions C106_unframed_refuted.

(** Nor is pchip local with one extremum on each side only. *)
Theorem C106_pchip_one_refuted :
  exists c x x' a b i y y', extrema_detection c = Simple /\ 1 <= nbsym c /\ parse_kind (spline_kind c) = Some Pchip /\
    0 <= a /\ b < zlen x /\ b < zlen x' /\ agree x x' a b /\ no_flat x a b /\
    framed1 (peak x) a b i /\ framed1 (trough x) a b i /\
    one_sift scipy_spl c (arange (length x)) x y /\ one_sift scipy_spl c (arange (length x')) x' y' /\
    sample y i <> sample y' i.
Proof.
  exists (local_cfg "pchip" 2 1), local_x, local_x', 0, 10, 8, (sifted "pchip" 2 local_x), (sifted "pchip" 2 local_x').
  split; [reflexivity|]. split; [cbn; lia|]. split; [reflexivity|]. split; [lia|]. split; [reflexivity|]. split; [reflexivity|].
  split; [exact local_agree|]. split; [apply flat_free_spec; vm_compute; reflexivity|].
  split. { exists 7, 9. split; [lia|]. split; [lia|]. split; extremum. }
  split. { exists 8, 8. split; [lia|]. split; [lia|]. split; extremum. }
  split; [apply sifts_spec; vm_compute; reflexivity|]. split; [apply sifts_spec; vm_compute; reflexivity|].
  intros C. apply (f_equal this) in C. vm_compute in C. discriminate.
Qed.
Print Assumptions C106_pchip_one_refuted.
