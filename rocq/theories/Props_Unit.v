(** * Props_Unit: properties C74 and C75, changes of unit in the ensemble methods and in 2D.

    [stretches] and [has_unit] are defined in UnitSpec.v, [responds] and [rescaled] in SymSpec.v. *)
From Verif Require Import Py PyFacts QcFacts Emd Eemd EemdSpec Ceemdan Image ImageSpec ImageSift Recon Spec SymSpec UnitSpec EmdSym EnsembleUnit ImageUnit
  Demo ImageDemo Props_Eemd Props_Ceemdan.
From Coq Require Import QArith Qcanon.
Open Scope Z_scope.

(** ** C74 *)
(** CEEMDAN divides the signal by its standard deviation: whatever the configuration, the inner
    decomposition and the thresholds, the signal in another unit gives the result in that unit. *)
Theorem C74_ceemdan :
  forall G (gen : generator Qc G) std emd_of arrival c o (S : list Qc) T max_imf k,
  (0 < k)%Qc -> has_unit std -> std S <> 0%Qc ->
  let '(r, o1) := ceemdan gen std emd_of arrival c o S T max_imf in
  let '(r', o1') := ceemdan gen std emd_of arrival c o (map (Qcmult k) S) T max_imf in
  c_random o1' = c_random o1 /\
  match r with
  | Ok C => r' = Ok (map (map (Qcmult k)) C) /\
      forall R, ceemdan_imfs_and_residue o1 = Ok (C, R) ->
        ceemdan_imfs_and_residue o1' = Ok (map (map (Qcmult k)) C, map (Qcmult k) R)
  | Raise e => r' = Raise e /\ C_IMF o1' = C_IMF o1 /\ c_residue o1' = c_residue o1
  end.
Proof. exact ceemdan_unit. Qed.
Print Assumptions C74_ceemdan.
(** EEMD's noise is as wide as the signal: with a fixed number of sifts and the thresholds converted
    too, the same seed gives the same result in the new unit, provided no trial has a residue that is
    negligible (below 1e-8) in one unit only. *)
Theorem C74_eemd :
  forall G (gen : generator Qc G) spl fuel ec c o o2 (S : list Qc) T max_imf E o' k hi lo,
  (0 < k)%Qc -> stretches gen -> sized gen -> responds (Qcmult k) spl ->
  extrema_detection ec = Simple -> FIXE ec <> 0 \/ FIXE_H ec <> 0 ->
  (2 <= length S)%nat -> In hi S -> In lo S -> (forall x, In x S -> lo <= x <= hi)%Qc ->
  (forall g v g' e, generate_noise gen c g (noise_width c * (hi - lo))%Qc (length S) = (Ok v, g') ->
     emd spl fuel ec (map2 Qcplus S v) None max_imf = Ok e ->
     (negligible (residue e) <-> negligible (map (Qcmult k) (residue e)))) ->
  random o2 = random o ->
  eemd gen (emd_decomposer spl fuel ec) c o S T max_imf = (Ok E, o') ->
  exists o2', eemd gen (emd_decomposer spl fuel (rescaled k ec)) c o2 (map (Qcmult k) S) T max_imf
              = (Ok (map (map (Qcmult k)) E), o2') /\
    random o2' = random o' /\
    exists r, eemd_imfs_and_residue o' = Ok (E, r) /\
      eemd_imfs_and_residue o2' = Ok (map (map (Qcmult k)) E, map (Qcmult k) r).
Proof. exact eemd_unit_emd. Qed.
Print Assumptions C74_eemd.
(** Neither is true of a negative factor: the noise is not negated. *)
Theorem C74_negation_refuted :
  (exists c o (S : list Qc) C C' o1 o1', ceemdan demo_gen demo_std demo_emd (@rev _) c o S None (-1) = (Ok C, o1) /\
     ceemdan demo_gen demo_std demo_emd (@rev _) c o (map Qcopp S) None (-1) = (Ok C', o1') /\ C' <> map (map Qcopp) C) /\
  (exists c o (S : list Qc) E E' o1 o1', eemd demo_gen demo_dec c o S None (-1) = (Ok E, o1) /\
     eemd demo_gen demo_dec c o (map Qcopp S) None (-1) = (Ok E', o1') /\ E' <> map (map Qcopp) E).
Proof.
  split.
  - pose (c := demo_ccfg 2 1%Qc true false). 
    assert (G : match ceemdan demo_gen demo_std demo_emd (@rev _) c demo_cst short_S None (-1),
      ceemdan demo_gen demo_std demo_emd (@rev _) c demo_cst (map Qcopp short_S) None (-1) with
      | (Ok C, _), (Ok C', _) => if list_eq_dec (list_eq_dec Qc_eq_dec) C' (map (map Qcopp) C) then false else true
      | _, _ => false end = true) by (vm_compute; reflexivity).
    exists c, demo_cst, short_S.
    destruct (ceemdan _ _ _ _ c demo_cst short_S None (-1)) as [[C|] o1]; [|discriminate G].
    destruct (ceemdan _ _ _ _ c demo_cst (map Qcopp short_S) None (-1)) as [[C'|] o1']; [|discriminate G].
    exists C, C', o1, o1'. split; [reflexivity|]. split; [reflexivity|].
    destruct (list_eq_dec (list_eq_dec Qc_eq_dec) C' (map (map Qcopp) C)); [discriminate G|auto].
  - pose (c := demo_ecfg 2 false false 1).
    assert (G : match eemd demo_gen demo_dec c demo_obj short_S None (-1), eemd demo_gen demo_dec c demo_obj (map Qcopp short_S) None (-1) with
      | (Ok C, _), (Ok C', _) => if list_eq_dec (list_eq_dec Qc_eq_dec) C' (map (map Qcopp) C) then false else true
      | _, _ => false end = true) by (vm_compute; reflexivity).
    exists c, demo_obj, short_S.
    destruct (eemd _ _ c demo_obj short_S None (-1)) as [[C|] o1]; [|discriminate G].
    destruct (eemd _ _ c demo_obj (map Qcopp short_S) None (-1)) as [[C'|] o1']; [|discriminate G].
    exists C, C', o1, o1'. split; [reflexivity|]. split; [reflexivity|].
    destruct (list_eq_dec (list_eq_dec Qc_eq_dec) C' (map (map Qcopp) C)); [discriminate G|auto].
Qed.
Print Assumptions C74_negation_refuted.

Lemma demo_stretches : stretches demo_gen.
Proof.
  intros k g n Hk. split; intros; cbn [normal uniform demo_gen fst snd]; rewrite map_map; f_equal; apply map_ext; intros; num_qc; ring.
Qed.
Lemma demo_std_unit : has_unit demo_std.
Proof.
  intros k v Hk. unfold demo_std. rewrite map_map. replace (total (map (fun x => Qc_abs (k * x)) v)) with (k * total (map Qc_abs v))%Qc; [field; discriminate|].
  assert (A : Qc_abs k = k) by (unfold Qc_abs; rewrite (proj2 (Qc_ltb_ge k 0)); auto; apply Qclt_le_weak; auto).
  rewrite <- (total_sc k). unfold sc. rewrite map_map. f_equal. apply map_ext. intros x. rewrite abs_mul, A. reflexivity.
Qed.
Definition mega : Qc := Qc_ofZ 1000000.
Example C74_nonvacuous :
  has_unit demo_std /\ demo_std short_S <> 0%Qc /\ stretches demo_gen /\ sized demo_gen /\ responds (Qcmult mega) lin_spl /\
  extrema_detection demo_fixe = Simple /\ FIXE demo_fixe <> 0 /\ In (Qc_ofZ 4) short_S /\ In (Qc_ofZ (-3)) short_S /\
  (forall x, In x short_S -> Qc_ofZ (-3) <= x <= Qc_ofZ 4)%Qc /\
  (forall g v g' e, generate_noise demo_gen (demo_ecfg 2 false false 1) g (nlit 1 10 * (Qc_ofZ 4 - Qc_ofZ (-3)))%Qc 9 = (Ok v, g') ->
     emd lin_spl 10 demo_fixe (map2 Qcplus short_S v) None (-1) = Ok e ->
     (negligible (residue e) <-> negligible (map (Qcmult mega) (residue e)))) /\
  match eemd demo_gen (emd_decomposer lin_spl 10 (rescaled mega demo_fixe)) (demo_ecfg 2 false false 1) demo_obj (map (Qcmult mega) short_S) None (-1)
  with (Ok E, _) => length E = 3%nat | _ => False end.
Proof.
  split; [exact demo_std_unit|]. split; [vm_compute; discriminate|]. split; [exact demo_stretches|]. split; [exact demo_sized|].
  split; [apply (lin_responds mega 0); intros; unfold g; ring|]. split; [reflexivity|]. split; [discriminate|].
  split; [right; right; right; left; reflexivity|]. split; [right; left; reflexivity|].
  split. { intros x Hx. repeat (destruct Hx as [<-|Hx]; [split; vm_compute; discriminate|]). destruct Hx. }
  split; [|vm_compute; reflexivity].
  intros g v g' e EN EE. cbn [generate_noise demo_ecfg noise_kind demo_gen normal fst snd] in EN.
  apply pair_inv in EN as [Ev _]. apply ok_inv in Ev. symmetry in Ev.
  assert (V : v = map (fun i => (nlit 1 10 * (Qc_ofZ 4 - Qc_ofZ (-3)) * Qc_ofZ ((3 * (g mod 7) + 5 * i + i * i) mod 7 - 3))%Qc) (zseq 0 9)).
  { rewrite <- Ev. apply map_ext. intros i. f_equal. f_equal. f_equal.
    replace (3 * g + 5 * i + i * i) with (3 * (g mod 7) + 5 * i + i * i + (3 * (g / 7)) * 7) by (pose proof (Z_div_mod_eq_full g 7); lia).
    apply Z_mod_plus_full. }
  assert (B : 0 <= g mod 7 < 7) by (apply Z.mod_pos_bound; lia).
  rewrite V in EE. clear Ev V v. revert EE B. generalize (g mod 7). clear g. intros g EE B.
  assert (NB : forall l, allclose0 l = false -> allclose0 (map (Qcmult mega) l) = false -> (negligible l <-> negligible (map (Qcmult mega) l))).
  { intros l H1 H2. rewrite <- !EmdExact.negligible_iff, H1, H2. tauto. }
  assert (CH : match emd lin_spl 10 demo_fixe (map2 Qcplus short_S (map (fun i => (nlit 1 10 * (Qc_ofZ 4 - Qc_ofZ (-3)) * Qc_ofZ ((3 * g + 5 * i + i * i) mod 7 - 3))%Qc) (zseq 0 9))) None (-1) with
    | Ok e => negb (allclose0 (residue e)) && negb (allclose0 (map (Qcmult mega) (residue e))) | _ => true end = true).
  { assert (g = 0 \/ g = 1 \/ g = 2 \/ g = 3 \/ g = 4 \/ g = 5 \/ g = 6) as H by lia. clear EE B.
    destruct H as [->|[->|[->|[->|[->|[->| ->]]]]]]; vm_compute; reflexivity. }
  rewrite EE in CH. apply andb_prop in CH as [C1 C2]. apply negb_true_iff in C1, C2. apply NB; auto.
Qed.

(** ** C75 *)
(** EMD2D scales every image to [0, 1]: an image with other grey levels [k * y + a] has the same
    components, times [k], as far as both decompositions go (the last row also holds what is left); and
    if one component is asked for, the two results correspond completely, the offset being in the last
    row. *)
Theorem C75_emd2d :
  forall (sbs : surface Qc) c fuel fuel' (image : list (list Qc)) max_imf rows rows' (k a : Qc), (0 < k)%Qc ->
  emd2d sbs c fuel image max_imf = Ok rows ->
  emd2d sbs c fuel' (map (map (fun y => k * y + a)%Qc) image) max_imf = Ok rows' ->
  (forall i, (S i < length rows)%nat -> (S i < length rows')%nat -> nth i rows' [] = map (map (Qcmult k)) (nth i rows [])) /\
  (max_imf = 1 -> exists l z, rows = l ++ [z] /\ rows' = map (map (map (Qcmult k))) l ++ [map (map (fun y => k * y + a)%Qc) z]).
Proof. exact (fun sbs c fuel fuel' image m rows rows' k a Hk => emd2d_unit k a Hk sbs c fuel fuel' image m rows rows'). Qed.
Print Assumptions C75_emd2d.
(** But they may go differently far: the end condition compares the components of the scaled image
    with the original one. *)
Theorem C75_emd2d_refuted : exists (sbs : surface Qc) c image rows rows', surface_ok sbs /\ rect 7 7 image /\
  emd2d sbs c 5 image 3 = Ok rows /\ emd2d sbs c 5 (map (map (Qcmult (Qc_ofZ 2))) image) 3 = Ok rows' /\
  length rows = 1%nat /\ length rows' = 3%nat.
Proof.
  assert (G : match emd2d (flat_surface 0%Qc) (cfg2_of 1 0 100) 5 (spikes 1) 3,
     emd2d (flat_surface 0%Qc) (cfg2_of 1 0 100) 5 (map (map (Qcmult (Qc_ofZ 2))) (spikes 1)) 3 with
     | Ok rows, Ok rows' => (length rows, length rows') | _, _ => (O, O) end = (1%nat, 3%nat)) by (vm_compute; reflexivity).
  exists (flat_surface 0%Qc), (cfg2_of 1 0 100), (spikes 1).
  destruct (emd2d (flat_surface 0%Qc) (cfg2_of 1 0 100) 5 (spikes 1) 3) as [rows|]; [|discriminate G].
  destruct (emd2d (flat_surface 0%Qc) (cfg2_of 1 0 100) 5 (map (map (Qcmult (Qc_ofZ 2))) (spikes 1)) 3) as [rows'|]; [|discriminate G].
  exists rows, rows'. split; [apply flat_surface_ok|]. split; [apply spikes_rect|]. split; [reflexivity|]. split; [reflexivity|].
  split; congruence.
Qed.
Print Assumptions C75_emd2d_refuted.
(** BEMD does not scale, and looks for maxima that stand out by one grey level: which pixels count
    depends on the unit. *)
Theorem C75_bemd_refuted : exists (image : list (list Qc)) (k : Qc), (0 < k)%Qc /\ rect 3 4 image /\
  maxima_positions recon image = [(2%nat, 1%nat)] /\
  maxima_positions recon (map (map (Qcmult k)) image) = [(1%nat, 1%nat); (2%nat, 1%nat)].
Proof.
  exists (map qs [[0; 0; 0; 0]; [0; 3; 4; 0]; [0; 0; 0; 0]]), (Q2Qc (1 # 4)). split; [reflexivity|].
  split; [apply rect_dec; reflexivity|]. split; vm_compute; reflexivity.
Qed.
Print Assumptions C75_bemd_refuted.
Example C75_nonvacuous :
  match emd2d (flat_surface half) (cfg2_of 2 0 100) 5 (spikes 3) 2,
        emd2d (flat_surface half) (cfg2_of 2 0 100) 5 (map (map (fun y => Qc_ofZ 255 * y + Qc_ofZ (-7))%Qc) (spikes 3)) 2 with
  | Ok rows, Ok rows' => (length rows, length rows') | _, _ => (O, O) end = (3%nat, 3%nat).
Proof. vm_compute. reflexivity. Qed.
