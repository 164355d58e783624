(** * Float32Proofs: conversions between formats, and the residue on narrower arrays. *)
From Verif Require Import Py PyFacts Emd Spec Float64 Float64Proofs EmdProofs EmdExact Narrow NarrowProofs Float32.
From Flocq Require Import Core BinarySingleNaN.
From Coq Require Import Reals Lra Lia List.
Import ListNotations.
Open Scope Z_scope.

Section Convert.
Variables prec emax prec' emax' : Z.
Context (Hp' : Prec_gt_0 prec') (He' : Prec_lt_emax prec' emax').

(** A number of the first format that the second one can hold is not changed. *)
Lemma convert_exact (x : binary_float prec emax) : is_finite x = true ->
  generic_format radix2 (SpecFloat.fexp prec' emax') (BinarySingleNaN.B2R x) ->
  (Rabs (BinarySingleNaN.B2R x) < bpow radix2 emax')%R ->
  is_finite (convert Hp' He' x) = true /\ BinarySingleNaN.B2R (convert Hp' He' x) = BinarySingleNaN.B2R x /\
  Bsign (convert Hp' He' x) = Bsign x.
Proof.
  intros F G L. destruct x as [s|s| |s m e Hb]; try discriminate; cbn [convert]; auto.
  pose proof (binary_normalize_correct prec' emax' Hp' He' mode_NE (cond_Zopp s (Z.pos m)) e s) as C.
  cbv zeta in C. change (F2R _) with (BinarySingleNaN.B2R (B754_finite s m e Hb)) in C.
  rewrite round_generic in C by (auto with typeclass_instances).
  rewrite Rlt_bool_true in C by exact L. destruct C as (C1 & C2 & C3).
  split; [exact C2|]. split; [exact C1|]. rewrite C3. unfold BinarySingleNaN.B2R, F2R; cbn [Fnum Fexp].
  pose proof (bpow_gt_0 radix2 e). destruct s; cbn [cond_Zopp Bsign].
  - rewrite Rcompare_Lt; auto. assert (IZR (- Z.pos m) < 0)%R by (apply IZR_lt; lia). nra.
  - rewrite Rcompare_Gt; auto. assert (0 < IZR (Z.pos m))%R by (apply IZR_lt; lia). nra.
Qed.

Hypothesis Pp : prec <= prec'.
Hypothesis Pe : emax <= emax'.
Hypothesis Pm : 3 - emax' - prec' <= 3 - emax - prec.
Lemma format_wider (x : R) : generic_format radix2 (SpecFloat.fexp prec emax) x -> generic_format radix2 (SpecFloat.fexp prec' emax') x.
Proof.
  apply generic_inclusion_mag. intros _. unfold SpecFloat.fexp, SpecFloat.emin. lia.
Qed.
Lemma widen_ok (x : binary_float prec emax) : is_finite x = true ->
  is_finite (convert Hp' He' x) = true /\ BinarySingleNaN.B2R (convert Hp' He' x) = BinarySingleNaN.B2R x /\
  Bsign (convert Hp' He' x) = Bsign x.
Proof.
  intros F. apply convert_exact; auto.
  - apply format_wider. apply generic_format_B2R. 
  - eapply Rlt_le_trans; [apply abs_B2R_lt_emax; auto|]. apply bpow_le. exact Pe.
Qed.
End Convert.

Lemma convert_back prec emax prec' emax' (Hp : Prec_gt_0 prec) (He : Prec_lt_emax prec emax) (Hp' : Prec_gt_0 prec') (He' : Prec_lt_emax prec' emax')
  (x : binary_float prec emax) : prec <= prec' -> emax <= emax' -> 3 - emax' - prec' <= 3 - emax - prec ->
  convert Hp He (convert Hp' He' x) = x.
Proof.
  intros P1 P2 P3. destruct (is_finite x) eqn:F; [|destruct x; try discriminate; reflexivity].
  destruct (widen_ok prec emax prec' emax' Hp' He' P1 P2 P3 x F) as (F1 & V1 & S1).
  destruct (convert_exact prec' emax' prec emax Hp He (convert Hp' He' x) F1) as (F2 & V2 & S2).
  - rewrite V1. apply generic_format_B2R.
  - rewrite V1. apply abs_B2R_lt_emax; auto.
  - apply B2R_Bsign_inj; auto; congruence.
Qed.

Lemma convert_finite prec emax (x : binary_float prec emax) : is_finite (widen x) = true -> is_finite x = true.
Proof. destruct x; cbn; auto. Qed.

(** ** The residue *)
Open Scope R_scope.
Lemma residue_error (S : list f64) M r i : shaped (length S) M -> r = vsub S (sum_rows (length S) M) -> (i < length S)%nat ->
  finite (nth i r n0) ->
  finite (nth i S n0) /\ finite (library_sum M i) /\
  Rabs (B2R (nth i S n0) - (B2R (library_sum M i) + B2R (nth i r n0)))
    <= u53 * Rabs (B2R (nth i S n0) - B2R (library_sum M i)) /\
  Rabs (B2R (nth i S n0) - (real_sum M i + B2R (nth i r n0)))
    <= u53 * Rabs (B2R (nth i S n0) - B2R (library_sum M i)) + ((1 + u53) ^ Nat.pred (length M) - 1) * real_size M i.
Proof.
  intros HM Er0 Hi F.
  assert (Er : nth i r n0 = nsub (nth i S n0) (library_sum M i)).
  { rewrite Er0, <- (sum_rows_at M (length S)) by auto. unfold vsub. apply nth_map2; auto.
    rewrite sum_rows_length; auto. apply Forall_forall. exact HM. }
  unfold finite in *. rewrite Er in *. destruct (minus_finite _ _ F) as [F1 F2].
  pose proof (minus_error _ _ F) as E.
  assert (E' : Rabs (B2R (library_sum M i) - real_sum M i) <= ((1 + u53) ^ Nat.pred (length M) - 1) * real_size M i).
  { pose proof (sum_error _ F2) as E'. rewrite map_length in E'. rewrite !map_map in E'. exact E'. }
  set (x := B2R (nth i S n0)) in *. set (y := B2R (library_sum M i)) in *.
  set (d := B2R (nsub (nth i S n0) (library_sum M i))) in *. set (z := real_sum M i) in *.
  assert (E2 : Rabs (x - (y + d)) <= u53 * Rabs (x - y)).
  { replace (x - (y + d)) with (- (d - (x - y))) by ring. rewrite Rabs_Ropp. exact E. }
  repeat split; auto. replace (x - (z + d)) with ((x - (y + d)) + (y - z)) by ring.
  eapply Rle_trans; [apply Rabs_triang|]. lra.
Qed.
Close Scope R_scope.

Lemma narrow_residue prec emax (HN : Num (binary_float prec emax)) down draw fuel c cw
    (S : list (binary_float prec emax)) T k (o : emd_out f64) i :
  prec <= 53 -> emax <= 1024 -> -1074 <= 3 - emax - prec ->
  emd_n widen down draw fuel c cw S T k = Ok o -> (i < length S)%nat -> finite (nth i (residue o) n0) ->
  forall x, nth_error S i = Some x ->
  is_finite x = true /\ finite (library_sum (imfs o) i) /\
  (Rabs (BinarySingleNaN.B2R x - (B2R (library_sum (imfs o) i) + B2R (nth i (residue o) n0)))
    <= u53 * Rabs (BinarySingleNaN.B2R x - B2R (library_sum (imfs o) i)))%R /\
  (Rabs (BinarySingleNaN.B2R x - (real_sum (imfs o) i + B2R (nth i (residue o) n0)))
    <= u53 * Rabs (BinarySingleNaN.B2R x - B2R (library_sum (imfs o) i)) + ((1 + u53) ^ Nat.pred (length (imfs o)) - 1) * real_size (imfs o) i)%R.
Proof.
  intros P1 P2 P3 E Hi F x Hx. pose proof (emd_n_residue _ _ _ _ _ _ _ _ _ _ E) as Er.
  destruct (emd_n_shape _ _ _ _ _ _ _ _ _ _ E) as (_ & HM & _).
  rewrite <- (map_length widen S) in *. pose proof (residue_error _ _ _ _ HM Er Hi F) as R.
  assert (Ex : nth i (map widen S) n0 = widen x).
  { apply nth_error_nth. rewrite nth_error_map, Hx. reflexivity. }
  rewrite Ex in R. destruct R as (F1 & F2 & R). pose proof (convert_finite _ _ _ F1) as Fx.
  destruct (widen_ok prec emax 53 1024 f64_prec f64_emax P1 P2 P3 x Fx) as (_ & V & _).
  unfold widen in R. rewrite V in R. auto.
Qed.

Lemma qc_residue {N} `{Num N} up down draw fuel (c : emd_config N) cw S T k (o : emd_out Qcanon.Qc) :
  emd_n up down draw fuel c cw S T k = Ok o -> adds_up (imfs o ++ [residue o]) (map up S).
Proof.
  intros E i Hi. rewrite map_length in Hi.
  rewrite total_at_app, total_at_one, (emd_n_residue _ _ _ _ _ _ _ _ _ _ E), Qcanon.Qcplus_comm.
  rewrite <- (map_length up S). apply residue_spec.
  rewrite map_length. eapply emd_n_shape; eauto.
Qed.
