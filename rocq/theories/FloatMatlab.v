(** * FloatMatlab: reconstruction by EMD_matlab in binary64. *)
From Flocq Require Import Core BinarySingleNaN.
From Coq Require Import Reals Lra Lia List QArith Qcanon Qreals.
From Verif Require Import Py PyFacts QcFacts Emd Matlab Spec Float64 FloatSpec EmdProofs MatlabRun Float64Proofs FloatEnsemble FloatImage.
From Coq Require Import Lra.
Import ListNotations.
Open Scope Z_scope.
Open Scope R_scope.

(** ** Sums that are no NaN *)
Lemma add_not_nan (a x : f64) : is_nan a = false -> is_finite x = true -> is_nan (nadd a x) = false.
Proof.
  destruct a as [[]|[]| |sa ma ea Ha], x as [[]|[]| |sx mx ex Hx]; try discriminate; intros _ _; try reflexivity;
    cbn [nadd F64Num Bplus]; apply is_nan_binary_normalize.
Qed.
Lemma fold_not_nan (l : list f64) : Forall finite l -> forall a, is_nan a = false -> is_nan (fold_left nadd l a) = false.
Proof. induction 1 as [|x l Hx Hl IH]; intros a Ha; cbn [fold_left]; auto. apply IH, add_not_nan; auto. Qed.
Lemma sub_not_nan (a x : f64) : is_finite a = true -> is_nan x = false -> is_nan (nsub a x) = false.
Proof.
  destruct a as [[]|[]| |sa ma ea Ha], x as [[]|[]| |sx mx ex Hx]; try discriminate; intros _ _; try reflexivity;
    cbn [nsub F64Num Bminus]; apply is_nan_binary_normalize.
Qed.

(** ** Rounded sums of numbers that are not negative are at least each of them *)
Definition pos (x : f64) : Prop := is_nan x = false /\ x <> B754_infinity true /\ 0 <= B2R x.
Lemma abs_pos (x : f64) : is_nan x = false -> pos (nabs x).
Proof.
  intros Hx. split; [destruct x as [[]|[]| |]; auto|]. split; [destruct x as [[]|[]| |]; discriminate|].
  change (nabs x) with (Babs x). rewrite B2R_Babs. apply Rabs_pos.
Qed.
Lemma add_pos (a x : f64) : pos a -> pos x -> pos (nadd a x) /\
  (is_finite (nadd a x) = true -> is_finite a = true /\ is_finite x = true /\ B2R a <= B2R (nadd a x) /\ B2R x <= B2R (nadd a x)).
Proof.
  intros (Na & Ia & Pa) (Nx & Ix & Px).
  destruct (is_finite a) eqn:Fa.
  2:{ assert (Ea : a = B754_infinity false) by (destruct a as [[]|[]| |]; try discriminate; congruence).
      assert (E : nadd a x = B754_infinity false) by (rewrite Ea; destruct x as [[]|[]| |]; try discriminate; try congruence; reflexivity).
      rewrite E. split; [|discriminate]. repeat split; try discriminate. cbn. lra. }
  destruct (is_finite x) eqn:Fx.
  2:{ assert (Ex : x = B754_infinity false) by (destruct x as [[]|[]| |]; try discriminate; congruence).
      assert (E : nadd a x = B754_infinity false) by (rewrite Ex; destruct a as [[]|[]| |]; try discriminate; try congruence; reflexivity).
      rewrite E. split; [|discriminate]. repeat split; try discriminate. cbn. lra. }
  pose proof (add_not_nan a x Na Fx) as Nn.
  pose proof (Bplus_correct 53 1024 f64_prec f64_emax mode_NE a x Fa Fx) as H.
  change (nadd a x) with (Bplus mode_NE a x) in *.
  change (SpecFloat.fexp 53 1024) with fexp64 in H. rewrite (mode_rnd _ eq_refl) in H.
  assert (Ha : B2R a <= rnd (B2R a + B2R x)).
  { rewrite <- (round_generic radix2 fexp64 ZnearestE (B2R a)) at 1 by apply fmt. apply round_le; try apply valid_rnd_N; try typeclasses eauto. lra. }
  assert (Hx : B2R x <= rnd (B2R a + B2R x)).
  { rewrite <- (round_generic radix2 fexp64 ZnearestE (B2R x)) at 1 by apply fmt. apply round_le; try apply valid_rnd_N; try typeclasses eauto. lra. }
  destruct (Rlt_bool_spec (Rabs (rnd (B2R a + B2R x))) (bpow radix2 1024)) as [Hlt|Hge].
  - destruct H as (E & F & _). split; [|intros _; rewrite E; auto]. split; auto. split; [|rewrite E; lra].
    intros Ei. rewrite Ei in F. discriminate F.
  - destruct H as [H Hs]. apply overflow_pos in Hge.
    assert (Sa : Bsign a = false).
    { destruct (Bsign a) eqn:Sa; auto. exfalso. symmetry in Hs. apply bsign_neg in Sa; auto. apply bsign_neg in Hs; auto.
      apply Hge. lra. }
    assert (E : Bplus mode_NE a x = B754_infinity false).
    { apply B2SF_inj. rewrite H, Sa. reflexivity. }
    rewrite E. split; [|discriminate]. repeat split; try discriminate. cbn. lra.
Qed.
Lemma fold_pos (l : list f64) : Forall pos l -> forall a, pos a -> pos (fold_left nadd l a) /\
  (is_finite (fold_left nadd l a) = true ->
     is_finite a = true /\ B2R a <= B2R (fold_left nadd l a) /\
     forall x, In x l -> is_finite x = true /\ B2R x <= B2R (fold_left nadd l a)).
Proof.
  induction 1 as [|x l Hx Hl IH]; intros a Ha; cbn [fold_left].
  - split; auto. intros F. split; auto. split; [lra|]. intros x [].
  - destruct (add_pos a x Ha Hx) as [Hp Hf]. destruct (IH _ Hp) as [I1 I2]. split; auto. intros F.
    destruct (I2 F) as (F1 & F2 & F3). destruct (Hf F1) as (G1 & G2 & G3 & G4).
    split; auto. split; [lra|]. intros y [<-|Hy]; [split; auto; lra|auto].
Qed.
Lemma not_above (t s : f64) : is_finite t = true -> pos s -> nltb t s = false -> is_finite s = true /\ B2R s <= B2R t.
Proof.
  intros Ft (Ns & Is & Ps) E.
  assert (Fs : is_finite s = true).
  { destruct s as [[]|[]| |]; auto; try discriminate; try congruence. destruct t as [[]|[]| |[]]; discriminate. }
  split; auto. change (Bltb t s = false) in E. rewrite (Bltb_correct 53 1024 _ _ Ft Fs) in E.
  destruct (Rlt_bool_spec (B2R t) (B2R s)); [discriminate|auto].
Qed.
(** The test at EMD_matlab.py:613: every sample is small. *)
Lemma power_small (v : list f64) : Forall (fun x : f64 => is_nan x = false) v ->
  nltb (nlit 1 (10 ^ 10)) (nsum (map nabs v)) = false ->
  forall x, In x v -> is_finite x = true /\ Rabs (B2R x) <= B2R (nlit 1 (10 ^ 10) : f64).
Proof.
  intros Hv E x Hx. assert (Hp : Forall pos (map nabs v)).
  { apply Forall_forall. intros y Hy. apply in_map_iff in Hy as (z & <- & Hz). apply abs_pos. rewrite Forall_forall in Hv. auto. }
  assert (P0 : pos n0) by (rewrite f64_zero; split; [reflexivity|split; [discriminate|cbn; lra]]).
  destruct (fold_pos _ Hp n0 P0) as [H1 H2]. fold (nsum (map nabs v)) in H1, H2.
  apply not_above in E as [F L]; [|reflexivity|exact H1]. destruct (H2 F) as (_ & _ & H3).
  destruct (H3 (nabs x) (in_map nabs _ _ Hx)) as [F1 F2].
  change (nabs x) with (Babs x) in F1, F2. rewrite is_finite_Babs in F1. rewrite B2R_Babs in F2. split; auto. lra.
Qed.

Lemma tol10_bound : (1 + u53) * B2R (nlit 1 (10 ^ 10) : f64) <= tol10.
Proof.
  assert (H : (Q2R (value (nlit 1 (10 ^ 10))) <= Q2R (Q2Qc (100001 # 10 ^ 15)))).
  { apply Qle_Rle. apply Qle_bool_imp_le. vm_compute. reflexivity. }
  rewrite value_B2R in H.
  assert (E : Q2R (Q2Qc (100001 # 10 ^ 15)) = 100001 / 1000000000000000).
  { change (this (Q2Qc (100001 # 10 ^ 15))) with (100001 # 1000000000000000). unfold Q2R. cbn [Qnum Qden]. reflexivity. }
  rewrite E in H. unfold tol10.
  assert (u53 <= / 1000000). { change u53 with (bpow radix2 (-53)). cbn [bpow]. apply Rinv_le; [lra|]. cbn. lra. }
  pose proof u53_pos. nra.
Qed.

Theorem matlab_float spl fuel c (S : list f64) T k rows no i :
  m_emd spl fuel c S T k = Ok (rows, no) -> (i < length S)%nat ->
  Forall finite S -> (forall r, In r rows -> Forall finite (row_imf r)) ->
  let M := map row_imf rows in
  Rabs (B2R (nth i S n0) - real_sum M i) <= ((1 + u53) ^ Nat.pred (length M) - 1) * real_size M i + tol10.
Proof.
  intros E Hi FS FR M. apply m_emd_ok in E as (rs & ext & t & Lt & _ & EL & _ & Er). cbv zeta in Er.
  assert (HM : shaped (length S) (map row_imf rs)).
  { eapply m_loop_shape; [| | |exact EL]; auto; [apply map_length|constructor]. }
  set (I := map row_imf rs) in *. set (Res := vsub S (sum_rows (length S) I)) in *.
  assert (LS : length (sum_rows (length S) I) = length S) by (apply sum_rows_length; apply Forall_forall; exact HM).
  assert (Lr : length Res = length S) by (apply vsub_length; auto).
  assert (At : forall j, (j < length S)%nat -> nth j Res n0 = nsub (nth j S n0) (library_sum I j)).
  { intros j Hj. rewrite <- (sum_rows_at I (length S)) by auto. apply nth_map2; [exact Hj|exact (eq_ind_r (fun k => (j < k)%nat) Hj LS)]. }
  assert (Ht : 0 < tol10) by (unfold tol10; lra).
  set (p := map (fun r => nth i r n0) I).
  destruct (nltb (nlit 1 (10 ^ 10)) (nsum (map nabs Res))) eqn:Et.
  - assert (EM : M = I ++ [Res]) by (unfold M; rewrite Er, map_app; reflexivity).
    assert (FRes : Forall finite Res). { apply (FR (MkRow Res ext 0)). rewrite Er. apply in_app_iff. right. left. auto. }
    assert (Fr : is_finite (nsub (nth i S n0) (fold_left nadd p n0)) = true).
    { change (fold_left nadd p n0) with (library_sum I i). rewrite <- At by auto. rewrite Forall_forall in FRes. apply FRes, nth_In. lia. }
    pose proof (rest_error (nth i S n0) p Fr) as H1. cbv beta zeta in H1.
    change (fold_left nadd p n0) with (library_sum I i) in H1. rewrite <- At in H1 by auto.
    assert (Eq : p ++ [nth i Res n0] = map (fun r => nth i r n0) (I ++ [Res])) by (unfold p; rewrite map_app; reflexivity).
    rewrite Eq, !map_map in H1. rewrite EM, app_length, Nat.add_1_r. cbn [length Nat.pred].
    assert (G : Rabs (B2R (nth i S n0) - real_sum (I ++ [Res]) i) <= ((1 + u53) ^ length I - 1) * real_size (I ++ [Res]) i).
    { unfold p in H1. rewrite map_length in H1. exact H1. }
    lra.
  - assert (EM : M = I) by (unfold M; rewrite Er; reflexivity).
    assert (FI : forall r, In r I -> Forall finite r).
    { intros r Hr. unfold I in Hr. apply in_map_iff in Hr as (q & <- & Hq). apply FR. rewrite Er. exact Hq. }
    assert (NN : Forall (fun x : f64 => is_nan x = false) Res).
    { apply Forall_forall. intros x Hx. apply In_nth with (d := n0) in Hx as (j & Hj & <-). assert (Hj2 : (j < length S)%nat) by (rewrite <- Lr; exact Hj). rewrite (At j Hj2).
      apply sub_not_nan.
      - rewrite Forall_forall in FS. apply FS, nth_In. lia.
      - unfold library_sum. apply fold_not_nan; [|reflexivity]. apply Forall_forall. intros y Hy.
        apply in_map_iff in Hy as (r & <- & Hr). pose proof (FI r Hr) as Fr. rewrite Forall_forall in Fr. apply Fr, nth_In.
        unfold shaped in HM. rewrite Forall_forall in HM. rewrite (HM r Hr). lia. }
    assert (Hin : In (nth i Res n0) Res) by (apply nth_In; lia).
    destruct (power_small Res NN Et _ Hin) as [Fr Hr]. rewrite At in Fr, Hr by auto.
    change (library_sum I i) with (fold_left nadd p n0) in Fr, Hr.
    destruct (minus_finite _ _ Fr) as [Fx Fl].
    pose proof (minus_error_r _ _ Fr) as H1. pose proof (sum_error p Fl) as H2. pose proof tol10_bound as H3. pose proof u53_pos as H4.
    set (r := B2R (nsub (nth i S n0) (fold_left nadd p n0))) in *. set (L := B2R (fold_left nadd p n0)) in *.
    set (y := B2R (nth i S n0)) in *.
    assert (G : Rabs (y - rsum (map B2R p)) <= ((1 + u53) ^ Nat.pred (length p) - 1) * rsum (map (fun a => Rabs (B2R a)) p) + tol10).
    { replace (y - rsum (map B2R p)) with ((L - rsum (map B2R p)) + (r - (r - (y - L)))) by ring.
      eapply Rle_trans; [apply Rabs_triang|].
      assert (Rabs (r - (r - (y - L))) <= Rabs r + Rabs (r - (y - L))).
      { unfold Rminus at 1. eapply Rle_trans; [apply Rabs_triang|]. rewrite Rabs_Ropp. lra. }
      pose proof (Rabs_pos r). assert (u53 * Rabs r <= u53 * B2R (nlit 1 (10 ^ 10) : f64)) by (apply Rmult_le_compat_l; lra).
      change (Rabs (L - rsum (map B2R p)) <= ((1 + u53) ^ Nat.pred (length p) - 1) * rsum (map (fun a => Rabs (B2R a)) p)) in H2. lra. }
    rewrite EM. unfold p in G. rewrite map_length, !map_map in G. exact G.
Qed.
Close Scope R_scope.
