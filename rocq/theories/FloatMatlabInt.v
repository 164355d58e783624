(** * FloatMatlabInt: EMD_matlab on integer arrays in binary64. *)
From Flocq Require Import Core BinarySingleNaN.
From Coq Require Import Reals Lra Lia List QArith Qcanon Qreals.
From Verif Require Import Py PyFacts QcFacts Emd Matlab MatlabInt Spec Float64 FloatSpec EmdProofs MatlabRun MatlabIntProofs Float64Proofs FloatEnsemble FloatImage FloatMatlab TypedFloat.
From Coq Require Import Lra.
Import ListNotations.
Open Scope Z_scope.
Open Scope R_scope.

(** ** Multiples of a power of two *)
Definition mult (k : Z) (r : R) : Prop := exists z, r = IZR z * bpow radix2 k.
Lemma mult_round k r : mult k r -> mult k (round radix2 fexp64 ZnearestE r).
Proof.
  intros [z Hz]. destruct (Z_le_gt_dec (cexp radix2 fexp64 r) k) as [L|L].
  - rewrite round_generic; [exists z; auto|apply valid_rnd_N|]. rewrite Hz. change (IZR z * bpow radix2 k) with (F2R (Float radix2 z k)).
    apply generic_format_F2R. intros _. unfold F2R. cbn [Fnum Fexp]. rewrite <- Hz. exact L.
  - unfold round, F2R. cbn [Fnum Fexp]. set (m := ZnearestE _). exists (m * 2 ^ (cexp radix2 fexp64 r - k))%Z.
    rewrite mult_IZR. rewrite (IZR_Zpower radix2) by lia. rewrite Rmult_assoc, <- bpow_plus. do 2 f_equal. lia.
Qed.
Lemma mult_plus k a b : mult k a -> mult k b -> mult k (a + b).
Proof. intros [x ->] [y ->]. exists (x + y)%Z. rewrite plus_IZR. ring. Qed.
Lemma mult_minus k a b : mult k a -> mult k b -> mult k (a - b).
Proof. intros [x ->] [y ->]. exists (x - y)%Z. rewrite minus_IZR. ring. Qed.
Lemma mult_times k a b : mult 0 a -> mult k b -> mult k (a * b).
Proof. intros [x ->] [y ->]. exists (x * y)%Z. rewrite mult_IZR. cbn [bpow]. ring. Qed.
Lemma mult_half r : mult (-1) r <-> exists z, r = IZR z / 2.
Proof. unfold mult. cbn [bpow]. change (IZR (Z.pow_pos radix2 1)) with 2. split; intros [z ->]; exists z; lra. Qed.
Lemma mult_coarse r : mult 0 r -> mult (-1) r.
Proof. intros [z ->]. apply mult_half. exists (2 * z)%Z. rewrite mult_IZR. cbn [bpow]. lra. Qed.

Definition gridf (k : Z) (x : f64) : Prop := is_finite x = true -> mult k (B2R x).
Lemma grid_plus k (x y : f64) : gridf k x -> gridf k y -> gridf k (nadd x y).
Proof.
  intros Hx Hy F. destruct (plus_finite _ _ F) as [Fx Fy]. pose proof (Bplus_correct 53 1024 f64_prec f64_emax mode_NE x y Fx Fy) as H.
  change (SpecFloat.fexp 53 1024) with fexp64 in H. destruct (Rlt_bool _ _).
  - destruct H as [H _]. cbn [nadd F64Num]. rewrite H. apply mult_round, mult_plus; auto.
  - destruct H as [H _]. exfalso. cbn [nadd F64Num] in F. rewrite <- is_finite_SF_B2SF, H in F. destruct (Bsign x); discriminate.
Qed.
Lemma grid_minus k (x y : f64) : gridf k x -> gridf k y -> gridf k (nsub x y).
Proof.
  intros Hx Hy F. destruct (minus_finite _ _ F) as [Fx Fy]. pose proof (Bminus_correct 53 1024 f64_prec f64_emax mode_NE x y Fx Fy) as H.
  change (SpecFloat.fexp 53 1024) with fexp64 in H. destruct (Rlt_bool _ _).
  - destruct H as [H _]. cbn [nsub F64Num]. rewrite H. apply mult_round, mult_minus; auto.
  - destruct H as [H _]. exfalso. cbn [nsub F64Num] in F. rewrite <- is_finite_SF_B2SF, H in F. destruct (Bsign x); discriminate.
Qed.
Lemma mult_finite (x y : f64) : is_finite (nmul x y) = true -> is_finite x = true /\ is_finite y = true.
Proof. destruct x as [[]|[]| |], y as [[]|[]| |]; try discriminate; auto. Qed.
Lemma grid_times k (x y : f64) : (is_finite x = true -> is_finite y = true -> mult k (B2R x * B2R y)) -> gridf k (nmul x y).
Proof.
  intros Hxy F. destruct (mult_finite _ _ F) as [Fx Fy]. pose proof (Bmult_correct 53 1024 f64_prec f64_emax mode_NE x y) as H.
  change (SpecFloat.fexp 53 1024) with fexp64 in H. destruct (Rlt_bool _ _).
  - destruct H as [H _]. cbn [nmul F64Num]. rewrite H. apply mult_round. auto.
  - exfalso. cbn [nmul F64Num] in F. rewrite <- is_finite_SF_B2SF, H in F. destruct (xorb _ _); discriminate.
Qed.
Lemma grid_ofZ z : gridf 0 (f64_ofZ z).
Proof.
  intros F. pose proof (binary_normalize_correct 53 1024 f64_prec f64_emax mode_NE z 0 false) as H. cbv zeta in H. fold (f64_ofZ z) in H.
  change (SpecFloat.fexp 53 1024) with fexp64 in H. destruct (Rlt_bool _ _).
  - destruct H as [H _]. rewrite H. apply mult_round. exists z. reflexivity.
  - exfalso. rewrite <- is_finite_SF_B2SF, H in F. destruct (Rlt_bool _ _); discriminate.
Qed.
Lemma half_value : B2R (nhalf : f64) = 1 / 2.
Proof. rewrite <- value_B2R. assert (E : value nhalf = Q2Qc (1 # 2)) by (apply Qc_eqb_eq; vm_compute; reflexivity). rewrite E. cbn. unfold Q2R. cbn. lra. Qed.
Lemma grid_mean (x y : f64) : gridf 0 x -> gridf 0 y -> gridf (-1) (nmul nhalf (nadd x y)).
Proof.
  intros Hx Hy. apply grid_times. intros _ F. pose proof (grid_plus 0 x y Hx Hy F) as [z Hz]. rewrite Hz, half_value.
  apply mult_half. exists z. cbn [bpow]. lra.
Qed.

(** ** Sums that are exact *)
Lemma exact_format r : mult (-1) r -> Rabs r < bpow radix2 52 -> generic_format radix2 fexp64 r.
Proof.
  intros [z Hz] Hr. apply generic_format_FLT. exists (Float radix2 z (-1)).
  - exact Hz.
  - cbn [Fnum]. apply lt_IZR. rewrite abs_IZR. change (radix2 ^ 53)%Z with (Zpower radix2 53). rewrite IZR_Zpower by lia.
    rewrite Hz, Rabs_mult in Hr. rewrite (Rabs_pos_eq (bpow radix2 (-1))) in Hr by apply bpow_ge_0.
    apply (Rmult_lt_reg_r (bpow radix2 (-1))); [apply bpow_gt_0|]. rewrite <- bpow_plus. exact Hr.
  - cbn [Fexp]. lia.
Qed.
Lemma big_enough r : Rabs r < bpow radix2 52 -> Rabs r < bpow radix2 1024.
Proof. intros Hr. eapply Rlt_trans; [exact Hr|]. apply bpow_lt. lia. Qed.
Lemma plus_exact (x y : f64) : is_finite x = true -> is_finite y = true -> mult (-1) (B2R x) -> mult (-1) (B2R y) ->
  Rabs (B2R x + B2R y) < bpow radix2 52 -> is_finite (nadd x y) = true /\ B2R (nadd x y) = B2R x + B2R y.
Proof.
  intros Fx Fy Hx Hy L. pose proof (Bplus_correct 53 1024 f64_prec f64_emax mode_NE x y Fx Fy) as H.
  change (SpecFloat.fexp 53 1024) with fexp64 in H. rewrite round_generic in H.
  - rewrite Rlt_bool_true in H by (apply big_enough; auto). destruct H as (H1 & H2 & _). auto.
  - apply valid_rnd_N.
  - apply exact_format; auto. apply mult_plus; auto.
Qed.
Lemma minus_exact (x y : f64) : is_finite x = true -> is_finite y = true -> mult (-1) (B2R x) -> mult (-1) (B2R y) ->
  Rabs (B2R x - B2R y) < bpow radix2 52 -> is_finite (nsub x y) = true /\ B2R (nsub x y) = B2R x - B2R y.
Proof.
  intros Fx Fy Hx Hy L. pose proof (Bminus_correct 53 1024 f64_prec f64_emax mode_NE x y Fx Fy) as H.
  change (SpecFloat.fexp 53 1024) with fexp64 in H. rewrite round_generic in H.
  - rewrite Rlt_bool_true in H by (apply big_enough; auto). destruct H as (H1 & H2 & _). auto.
  - apply valid_rnd_N.
  - apply exact_format; auto. apply mult_minus; auto.
Qed.
Lemma fold_exact (p : list f64) : forall a : f64,
  is_finite a = true -> mult (-1) (B2R a) -> Forall finite p -> Forall (gridf (-1)) p ->
  Rabs (B2R a) + rsum (map (fun x => Rabs (B2R x)) p) < bpow radix2 52 ->
  is_finite (fold_left nadd p a) = true /\ B2R (fold_left nadd p a) = B2R a + rsum (map B2R p).
Proof.
  induction p as [|x p IH]; intros a Fa Ha Fp Gp L; cbn [fold_left map rsum fold_right] in *.
  { split; auto. lra. }
  inversion Fp as [|? ? Fx Fp']; subst. inversion Gp as [|? ? Gx Gp']; subst.
  fold (rsum (map (fun x => Rabs (B2R x)) p)) in L. fold (rsum (map B2R p)).
  assert (P0 : 0 <= rsum (map (fun x => Rabs (B2R x)) p)).
  { clear. induction p as [|y p IH]; cbn [map rsum fold_right]; [lra|]. fold (rsum (map (fun x => Rabs (B2R x)) p)). pose proof (Rabs_pos (B2R y)). lra. }
  pose proof (Rabs_triang (B2R a) (B2R x)) as Tr.
  destruct (plus_exact a x Fa Fx Ha (Gx Fx)) as [F1 V1]; [lra|].
  destruct (IH (nadd a x) F1) as [F2 V2]; auto.
  - rewrite V1. apply mult_plus; auto.
  - rewrite V1. lra.
  - split; auto. rewrite V2, V1. lra.
Qed.

Lemma fold_grid k (p : list f64) : Forall (gridf k) p -> forall a, gridf k a -> gridf k (fold_left nadd p a).
Proof. induction 1 as [|x p Hx Hp IH]; intros a Ha; cbn [fold_left]; auto. apply IH, grid_plus; auto. Qed.

Lemma ofZ_finite z : (Z.abs z < 2 ^ 63)%Z -> is_finite (f64_ofZ z) = true.
Proof.
  intros Hz. pose proof (binary_normalize_correct 53 1024 f64_prec f64_emax mode_NE z 0 false) as H. cbv zeta in H. fold (f64_ofZ z) in H.
  change (SpecFloat.fexp 53 1024) with fexp64 in H. rewrite Rlt_bool_true in H.
  - tauto.
  - apply Rle_lt_trans with (bpow radix2 63); [|apply bpow_lt; lia].
    apply abs_round_le_generic; [apply FLT_exp_valid; reflexivity|apply valid_rnd_N|apply generic_format_bpow; unfold fexp64, FLT_exp; lia|].
    unfold F2R. cbn [Fnum Fexp bpow]. rewrite Rmult_1_r, <- abs_IZR. change (Z.pow_pos radix2 63) with (2 ^ 63)%Z. apply IZR_le. lia.
Qed.

Section Run.
Variables (spl : spline_oracle f64) (c : m_config f64).
Hypothesis HK : parse_kind (m_splineKind c) <> Some Akima.
Hypothesis HS : finite (reduceScale c) /\ exists z, B2R (reduceScale c) = IZR z.

Lemma scale_keeps (x : f64) : gridf (-1) x -> gridf (-1) (nmul (reduceScale c) x).
Proof. intros Hx. apply grid_times. intros _ F. destruct HS as [_ [z Hz]]. apply mult_times; auto. exists z. rewrite Hz. cbn [bpow]. ring. Qed.

Lemma rsum_pos l : 0 <= rsum (map (fun x : f64 => Rabs (B2R x)) l).
Proof. induction l as [|y p IH]; cbn [map rsum fold_right]; [lra|]. fold (rsum (map (fun x : f64 => Rabs (B2R x)) p)). pose proof (Rabs_pos (B2R y)). lra. Qed.
Lemma rsum_more l y : 0 <= y -> rsum l <= rsum (l ++ [y]).
Proof.
  intros Hy. induction l as [|x l IH]; cbn [app rsum fold_right]; [lra|]. fold (rsum l). fold (rsum (l ++ [y])). lra.
Qed.
Lemma rsum_tri l : Rabs (rsum (map (fun x : f64 => B2R x) l)) <= rsum (map (fun x : f64 => Rabs (B2R x)) l).
Proof.
  induction l as [|y p IH]; cbn [map rsum fold_right]; [rewrite Rabs_R0; lra|]. fold (rsum (map (fun x : f64 => Rabs (B2R x)) p)).
  fold (rsum (map (fun x : f64 => B2R x) p)). eapply Rle_trans; [apply Rabs_triang|]. lra.
Qed.

Lemma m_int_float fuel S T k rows no : m_emd_int spl fuel c S T k = Ok (rows, no) ->
  Forall (fun z => Z.abs z < 2 ^ 63)%Z S -> (forall r, In r rows -> Forall finite (row_imf r)) ->
  (forall r x, In r rows -> In x (row_imf r) -> exists z, B2R x = IZR z / 2) /\
  forall i, (i < length S)%nat ->
  Rabs (IZR (nth i S 0%Z)) + real_size (map row_imf rows) i < 2 ^ 52 ->
  real_sum (map row_imf rows) i = IZR (nth i S 0%Z).
Proof.
  intros E HZ HF. apply (m_emd_int_loop_keeps spl c (gridf 0) (gridf (-1))) in E; auto.
  2:{ intros x. apply grid_ofZ. }
  2:{ intros z F. apply mult_coarse. apply grid_ofZ. exact F. }
  2:{ apply grid_mean. }
  2:{ apply grid_minus. }
  2:{ apply scale_keeps. }
  destruct E as (rs & ext & Hr & HM & ER). cbv zeta in ER. rewrite map_length in ER.
  set (Sf := map nofZ S : list f64) in *. set (I := map row_imf rs) in *. set (Res := vsub Sf (sum_rows (length S) I)) in *.
  assert (Lf : length Sf = length S) by apply map_length.
  assert (LS : length (sum_rows (length S) I) = length S) by (apply sum_rows_length; apply Forall_forall; exact HM).
  assert (Lr : length Res = length S) by (unfold Res; rewrite vsub_length; congruence).
  assert (At : forall j, (j < length S)%nat -> nth j Res n0 = nsub (nth j Sf n0) (library_sum I j)).
  { intros j Hj. rewrite <- (sum_rows_at I (length S)) by auto. apply nth_map2; [rewrite Lf; exact Hj|exact (eq_ind_r (fun k => (j < k)%nat) Hj LS)]. }
  assert (GI : forall j, Forall (gridf (-1)) (map (fun r => nth j r n0) I)).
  { intros j. apply Forall_forall. intros x Hx. apply in_map_iff in Hx as (r & <- & Hx). unfold I in Hx. apply in_map_iff in Hx as (q & <- & Hq).
    pose proof (Hr q Hq) as G. destruct (Nat.lt_ge_cases j (length (row_imf q))) as [L|L].
    - rewrite Forall_forall in G. apply G, nth_In, L.
    - rewrite nth_overflow by auto. intros _. exists 0%Z. change (B2R (n0 : f64)) with 0. ring. }
  assert (EN : forall j, nth j Sf n0 = f64_ofZ (nth j S 0%Z)) by (intros j; exact (map_nth f64_ofZ S 0%Z j)).
  assert (GS : forall j, gridf (-1) (nth j Sf n0)).
  { intros j F. apply mult_coarse. rewrite EN in *. apply grid_ofZ. exact F. }
  assert (GL : forall j, gridf (-1) (library_sum I j)).
  { intros j. unfold library_sum. apply fold_grid; [apply GI|]. intros _. exists 0%Z. change (B2R (n0 : f64)) with 0. ring. }
  assert (GR : Forall (gridf (-1)) Res).
  { apply Forall_forall. intros x Hx. apply In_nth with (d := n0) in Hx as (j & Hj & <-).
    assert (Hj2 : (j < length S)%nat) by (rewrite <- Lr; exact Hj). rewrite (At j Hj2). apply grid_minus; auto. }
  split.
  - intros r x Hi Hx. apply mult_half. pose proof (HF r Hi) as F. rewrite Forall_forall in F. specialize (F x Hx).
    assert (In r (rs ++ [MkRow Res ext 0])). { rewrite ER in Hi. destruct (nltb _ _); [exact Hi|apply in_app_iff; left; exact Hi]. }
    apply in_app_iff in H as [H|[<-|[]]].
    + pose proof (Hr r H) as G. rewrite Forall_forall in G. apply (G x Hx F).
    + rewrite Forall_forall in GR. apply (GR x Hx F).
  - intros i Hi HB. replace (2 ^ 52) with (bpow radix2 52) in HB by (cbn; lra).
    assert (FS : forall j, (j < length S)%nat -> is_finite (nth j Sf n0) = true).
    { intros j Hj. rewrite EN. apply ofZ_finite. rewrite Forall_forall in HZ. apply HZ, nth_In, Hj. }
    assert (FI : forall j, (j < length S)%nat -> Forall finite (map (fun r => nth j r n0) I)).
    { intros j Hj. apply Forall_forall. intros x Hx. apply in_map_iff in Hx as (r & <- & Hx). unfold I in Hx. apply in_map_iff in Hx as (q & <- & Hq).
      assert (Hq' : In q rows) by (rewrite ER; destruct (nltb _ _); [apply in_app_iff; left; exact Hq|exact Hq]).
      pose proof (HF q Hq') as G. rewrite Forall_forall in G. apply G, nth_In. unfold shaped in HM. rewrite Forall_forall in HM.
      rewrite (HM (row_imf q)); auto. unfold I. apply in_map. exact Hq. }
    set (p := map (fun r => nth i r n0) I) in *.
    set (tot := rsum (map (fun x : f64 => Rabs (B2R x)) p)).
    assert (Htot : tot <= real_size (map row_imf rows) i).
    { unfold tot, p, real_size. rewrite map_map, ER. destruct (nltb _ _); fold I; [|apply Rle_refl].
      rewrite map_app. fold I. rewrite map_app. apply rsum_more. apply Rabs_pos. }
    assert (VS : B2R (nth i Sf n0) = IZR (nth i S 0%Z)).
    { rewrite EN. apply ofZ_spec. unfold small. apply le_IZR. rewrite abs_IZR.
      pose proof (rsum_pos p). fold tot in H. change (2 ^ 53)%Z with (Zpower radix2 53). rewrite IZR_Zpower by lia.
      apply Rlt_le. apply Rlt_trans with (bpow radix2 52); [lra|apply bpow_lt; lia]. }
    destruct (fold_exact p n0) as [FL VL].
    { reflexivity. } { exists 0%Z. change (B2R (n0 : f64)) with 0. ring. } { apply FI. exact Hi. } { apply GI. }
    { change (B2R (n0 : f64)) with 0. rewrite Rabs_R0, Rplus_0_l. change (tot < bpow radix2 52). pose proof (Rabs_pos (IZR (nth i S 0%Z))). lra. }
    change (fold_left nadd p n0) with (library_sum I i) in FL, VL. change (B2R (n0 : f64)) with 0 in VL. rewrite Rplus_0_l in VL.
    pose proof (rsum_tri p) as Tri. fold tot in Tri. change (rsum (map (fun x : f64 => B2R x) p)) with (rsum (map B2R p)) in Tri.
    destruct (minus_exact (nth i Sf n0) (library_sum I i)) as [FR VR]; auto.
    { apply GS. auto. } { apply GL. exact FL. }
    { rewrite VS, VL. unfold Rminus. eapply Rle_lt_trans; [apply Rabs_triang|]. rewrite Rabs_Ropp. lra. }
    rewrite <- At in FR, VR by exact Hi. rewrite VS, VL in VR.
    assert (RI : real_sum I i = rsum (map B2R p)) by (unfold real_sum, p; rewrite map_map; reflexivity).
    destruct (nltb (nlit 1 (10 ^ 10)) (nsum (map nabs Res))) eqn:Et; rewrite ER.
    + rewrite map_app. fold I. cbn [map row_imf]. unfold real_sum. rewrite map_app. cbn [map].
      assert (App : forall l m, rsum (l ++ m) = rsum l + rsum m).
      { induction l as [|x l IH]; intros m; cbn [app rsum fold_right]; [unfold rsum; lra|]. fold (rsum (l ++ m)). fold (rsum l). rewrite IH. lra. }
      rewrite App. unfold real_sum in RI. etransitivity; [apply f_equal2; [exact RI|reflexivity]|].
      transitivity (rsum (map B2R p) + (B2R (nth i Res n0) + 0)); [reflexivity|]. rewrite VR. lra.
    + fold I. rewrite RI.
      assert (NN : Forall (fun x : f64 => is_nan x = false) Res).
      { apply Forall_forall. intros x Hx. apply In_nth with (d := n0) in Hx as (j & Hj & <-). assert (Hj2 : (j < length S)%nat) by (rewrite <- Lr; exact Hj). rewrite (At j Hj2).
        apply sub_not_nan; [apply FS; exact Hj2|]. unfold library_sum. apply fold_not_nan; [|reflexivity]. apply FI. exact Hj2. }
      assert (Hin : In (nth i Res n0) Res) by (apply nth_In; lia).
      destruct (power_small Res NN Et _ Hin) as [_ Hs]. rewrite Forall_forall in GR. pose proof (GR _ Hin FR) as Gz.
      destruct (proj1 (mult_half _) Gz) as [z Hz]. pose proof tol10_bound as H3. pose proof u53_pos as H4.
      assert (Hlt : Rabs (IZR z / 2) < 1 / 2).
      { rewrite <- Hz. eapply Rle_lt_trans; [exact Hs|]. assert (B2R (nlit 1 (10 ^ 10) : f64) <= tol10).
        { pose proof (Rabs_pos (B2R (nth i Res n0))). nra. } unfold tol10 in H. lra. }
      assert (z = 0)%Z.
      { unfold Rdiv in Hlt. rewrite Rabs_mult, (Rabs_pos_eq (/ 2)) in Hlt by lra. rewrite <- abs_IZR in Hlt.
        assert (IZR (Z.abs z) < 1) by lra. apply lt_IZR in H. lia. }
      subst z. rewrite Hz in VR. lra.
Qed.
End Run.
Close Scope R_scope.
