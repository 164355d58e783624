(** * FloatEnsemble: rounding errors of products and quotients; reconstruction by EEMD and CEEMDAN
    in binary64. *)
From Flocq Require Import Core BinarySingleNaN Plus_error Relative.
From Coq Require Import Reals Lra Lia List.
From Verif Require Import Py PyFacts QcFacts Emd Eemd Ceemdan Spec Float64 EmdProofs EemdProofs CeemdanProofs Float64Proofs.
Import ListNotations.
From Coq Require Import Lra.
Open Scope Z_scope.
Notation eta := (bpow radix2 (-1075)).
Notation u53 := (bpow radix2 (-53)).
Open Scope R_scope.
Lemma u53_pos : 0 < u53. Proof. apply bpow_gt_0. Qed.
Lemma eta_pos : 0 < eta. Proof. apply bpow_gt_0. Qed.

Lemma half_ulp y : / 2 * ulp radix2 fexp64 y <= u53 * Rabs y + eta.
Proof.
  pose proof eta_pos. pose proof u53_pos.
  destruct (Rle_lt_dec (bpow radix2 (-1074 + 53 - 1)) (Rabs y)) as [H1|H1].
  - pose proof (ulp_FLT_le radix2 (-1074) 53 y H1) as H2.
    change (bpow radix2 (1 - 53)) with (bpow radix2 (1 + -53)) in H2. rewrite bpow_plus in H2.
    change (bpow radix2 1) with 2 in H2. nra.
  - assert (H2 : Rabs y < bpow radix2 (-1074 + 53)).
    { eapply Rlt_trans; [exact H1|]. apply bpow_lt. lia. }
    rewrite (ulp_FLT_small radix2 (-1074) 53 y H2).
    replace (bpow radix2 (-1074)) with (2 * eta).
    + pose proof (Rabs_pos y). nra.
    + change (-1074)%Z with (1 + -1075)%Z. rewrite bpow_plus. reflexivity.
Qed.
Lemma rnd_error (x : R) : Rabs (rnd x - x) <= u53 * Rabs (rnd x) + eta.
Proof. eapply Rle_trans; [apply (error_le_half_ulp_round radix2 fexp64)|apply half_ulp]. Qed.
Lemma rnd_error_x (x : R) : Rabs (rnd x - x) <= u53 * Rabs x + eta.
Proof. eapply Rle_trans; [apply (error_le_half_ulp radix2 fexp64)|apply half_ulp]. Qed.
Lemma mult_finite (x y : f64) : is_finite (nmul x y) = true -> is_finite x = true /\ is_finite y = true.
Proof. destruct x as [[]|[]| |[]], y as [[]|[]| |[]]; cbn; auto; discriminate. Qed.
Lemma mult_error (x y : f64) : is_finite (nmul x y) = true ->
  Rabs (B2R (nmul x y) - B2R x * B2R y) <= u53 * Rabs (B2R (nmul x y)) + eta.
Proof.
  intros F. destruct (mult_finite x y F) as [Fx Fy].
  pose proof (Bmult_correct 53 1024 f64_prec f64_emax mode_NE x y) as H.
  change (nmul x y) with (Bmult mode_NE x y) in *.
  change (SpecFloat.fexp 53 1024) with fexp64 in H. rewrite (mode_rnd _ eq_refl) in H.
  destruct (Rlt_bool_spec (Rabs (rnd (B2R x * B2R y))) (bpow radix2 1024)) as [Hlt|Hge].
  - destruct H as (E & _). rewrite E. apply rnd_error.
  - exfalso. assert (E : Bmult mode_NE x y = B754_infinity (xorb (Bsign x) (Bsign y))).
    { apply B2SF_inj. rewrite H. reflexivity. }
    rewrite E in F. discriminate.
Qed.
Lemma div_finite (x y : f64) : is_finite (ndiv x y) = true -> is_finite y = true ->
  is_finite x = true /\ B2R y <> 0.
Proof.
  destruct x as [[]|[]| |sx mx ex Hx], y as [[]|[]| |sy my ey Hy]; cbn; try discriminate; intros _ _; (split; [reflexivity|]);
    destruct sy; try (apply Rlt_not_eq, F2R_lt_0; reflexivity); apply Rgt_not_eq, F2R_gt_0; reflexivity.
Qed.
Lemma div_error (x y : f64) : is_finite (ndiv x y) = true -> is_finite y = true ->
  Rabs (B2R (ndiv x y) - B2R x / B2R y) <= u53 * Rabs (B2R x / B2R y) + eta.
Proof.
  intros F Fy. destruct (div_finite x y F Fy) as [Fx Hy].
  pose proof (Bdiv_correct 53 1024 f64_prec f64_emax mode_NE x y Hy) as H.
  change (ndiv x y) with (Bdiv mode_NE x y) in *.
  change (SpecFloat.fexp 53 1024) with fexp64 in H. rewrite (mode_rnd _ eq_refl) in H.
  destruct (Rlt_bool_spec (Rabs (rnd (B2R x / B2R y))) (bpow radix2 1024)) as [Hlt|Hge].
  - destruct H as (E & _). rewrite E. apply rnd_error_x.
  - exfalso. assert (E : Bdiv mode_NE x y = B754_infinity (xorb (Bsign x) (Bsign y))).
    { apply B2SF_inj. rewrite H. reflexivity. }
    rewrite E in F. discriminate.
Qed.
(** Sums and differences: relative to the result, without underflow. *)
Lemma sum_error_r (x y : f64) : Rabs (rnd (B2R x + B2R y) - (B2R x + B2R y)) <= u53 * Rabs (rnd (B2R x + B2R y)).
Proof.
  destruct (FLT_plus_error_N_round_ex radix2 (-1074) 53 (fun z => negb (Z.even z)) (B2R x) (B2R y) (fmt x) (fmt y)) as (eps & He & Er).
  assert (E : u_ro radix2 53 = u53).
  { unfold u_ro. change (/ 2) with (bpow radix2 (-1)). rewrite <- bpow_plus. reflexivity. }
  rewrite E in He. set (r := rnd (B2R x + B2R y)) in *. rewrite Er at 1.
  replace (r - r * (1 + eps)) with (- (eps * r)) by ring. rewrite Rabs_Ropp, Rabs_mult.
  apply Rmult_le_compat_r; auto. apply Rabs_pos.
Qed.
Lemma plus_error_r (x y : f64) : is_finite (nadd x y) = true ->
  Rabs (B2R (nadd x y) - (B2R x + B2R y)) <= u53 * Rabs (B2R (nadd x y)).
Proof. intros F. destruct (plus_error x y F) as [-> _]. apply sum_error_r. Qed.
Lemma minus_error_r (x y : f64) : is_finite (nsub x y) = true ->
  Rabs (B2R (nsub x y) - (B2R x - B2R y)) <= u53 * Rabs (B2R (nsub x y)).
Proof.
  intros F. destruct (minus_finite x y F) as [Fx Fy].
  pose proof (Bminus_correct 53 1024 f64_prec f64_emax mode_NE x y Fx Fy) as H.
  change (nsub x y) with (Bminus mode_NE x y) in *.
  change (SpecFloat.fexp 53 1024) with fexp64 in H. rewrite (mode_rnd _ eq_refl) in H.
  destruct (Rlt_bool_spec (Rabs (rnd (B2R x - B2R y))) (bpow radix2 1024)) as [Hlt|Hge].
  - destruct H as (E & _). rewrite E. pose proof (sum_error_r x (Bopp y)) as H. rewrite B2R_Bopp in H. exact H.
  - destruct H as [H _]. exfalso. assert (E : Bminus mode_NE x y = B754_infinity (Bsign x)).
    { apply B2SF_inj. rewrite H. reflexivity. }
    rewrite E in F. discriminate.
Qed.

(** ** A decomposition of [x] whose components are multiplied by [s] *)
Notation size := (fun l : list f64 => rsum (map (fun x => Rabs (B2R x)) l)).
Notation exact := (fun l : list f64 => rsum (map B2R l)).
Lemma size_pos l : 0 <= size l.
Proof. cbv beta. induction l as [|a l IH]; cbn; [lra|]. pose proof (Rabs_pos (B2R a)). unfold rsum in IH. lra. Qed.
Lemma rsum_app l k : rsum (l ++ k) = rsum l + rsum k.
Proof. unfold rsum. induction l; cbn; lra. Qed.
Lemma pow_ge1 n : 1 <= (1 + u53) ^ n.
Proof. apply pow_R1_Rle. pose proof u53_pos. lra. Qed.
(** What is left after the components [l] is itself the last component. *)
Lemma rest_error (x : f64) l : let r := nsub x (fold_left nadd l n0) in is_finite r = true ->
  Rabs (B2R x - exact (l ++ [r])) <= ((1 + u53) ^ length l - 1) * size (l ++ [r]).
Proof.
  cbv beta zeta. intros F. pose proof (minus_error_r _ _ F) as H1. destruct (minus_finite _ _ F) as [_ F2].
  pose proof (sum_error l F2) as H2. rewrite !map_app, !rsum_app. cbn [map rsum fold_right]. rewrite !Rplus_0_r.
  pose proof (size_pos l) as Hs. cbv beta in Hs. pose proof u53_pos as Hu.
  set (r := B2R (nsub x (fold_left nadd l n0))) in *. set (L := B2R (fold_left nadd l n0)) in *.
  set (X := rsum (map B2R l)) in *. set (Y := rsum (map (fun x => Rabs (B2R x)) l)) in *.
  assert (E : B2R x - (X + r) = (L - X) - (r - (B2R x - L))) by ring. change (Rabs (B2R x - (X + r)) <= ((1 + u53) ^ length l - 1) * (Y + Rabs r)). rewrite E. unfold Rminus at 1.
  eapply Rle_trans; [apply Rabs_triang|]. rewrite Rabs_Ropp. pose proof (Rabs_pos r) as Hr.
  destruct l as [|a l].
  - cbn [length Nat.pred pow] in *. assert (r = B2R x).
    { unfold r. pose proof (minus_finite _ _ F) as [Fx _]. destruct x as [[]|[]| |[]]; try discriminate; cbn; try reflexivity.
      all: rewrite ?B2R_SF2B; reflexivity. }
    assert (E0 : L - X = 0) by (change (0 - 0 = 0); ring).
    assert (E1 : r - (B2R x - L) = 0) by (rewrite H; change L with 0; ring). rewrite E0, E1, Rabs_R0. lra.
  - cbn [length Nat.pred pow] in *. pose proof (pow_ge1 (length l)). set (w := (1 + u53) ^ length l) in *.
    assert (0 <= u53 * w * Y) by (apply Rmult_le_pos; [nra|auto]).
    assert (0 <= (w - 1) * (1 + u53) * Rabs r) by (repeat apply Rmult_le_pos; nra). nra.
Qed.
Lemma scaled_error (x s : f64) l m t : (forall c, In c l -> is_finite (nmul c s) = true) ->
  Rabs (B2R x - exact l) <= ((1 + u53) ^ m - 1) * size l + t -> 0 <= t ->
  let C := map (fun c => nmul c s) l in
  Rabs (B2R x * B2R s - exact C) <=
    ((1 + u53) ^ Datatypes.S m - 1) * size C + t * Rabs (B2R s) + eta * (INR (length l) * (1 + u53) ^ m).
Proof.
  cbv beta zeta. intros F H Ht. pose proof u53_pos as Hu. pose proof eta_pos as He. pose proof (pow_ge1 m) as Hw. rewrite !map_map.
  assert (A : Rabs (exact l * B2R s - rsum (map (fun c => B2R (nmul c s)) l))
      <= u53 * rsum (map (fun c => Rabs (B2R (nmul c s))) l) + INR (length l) * eta /\
    size l * Rabs (B2R s) <= (1 + u53) * rsum (map (fun c => Rabs (B2R (nmul c s))) l) + INR (length l) * eta).
  { clear H Ht Hw. induction l as [|c l IH].
    - cbn. rewrite Rmult_0_l, Rminus_0_r, Rabs_R0. lra.
    - destruct IH as [I1 I2]; [intros; apply F; right; auto|]. pose proof (mult_error c s (F c (or_introl eq_refl))) as E.
      cbv beta. cbn [map]. change (rsum (?a :: ?b)) with (a + rsum b). cbn [length]. rewrite S_INR.
      set (p := B2R (nmul c s)) in *. cbv beta in I1, I2.
      set (X := rsum (map B2R l)) in *. set (Y := rsum (map (fun x => Rabs (B2R x)) l)) in *.
      set (P := rsum (map (fun c => B2R (nmul c s)) l)) in *. set (Q := rsum (map (fun c => Rabs (B2R (nmul c s))) l)) in *.
      split.
      + replace ((B2R c + X) * B2R s - (p + P)) with ((X * B2R s - P) - (p - B2R c * B2R s)) by ring.
        unfold Rminus at 1. eapply Rle_trans; [apply Rabs_triang|]. rewrite Rabs_Ropp. lra.
      + rewrite Rmult_plus_distr_r, <- Rabs_mult.
        assert (Rabs (B2R c * B2R s) <= Rabs p + Rabs (p - B2R c * B2R s)).
        { replace (B2R c * B2R s) with (p + - (p - B2R c * B2R s)) at 1 by ring. eapply Rle_trans; [apply Rabs_triang|]. rewrite Rabs_Ropp. lra. }
        lra. }
  destruct A as [A1 A2]. cbv beta in *.
  set (X := rsum (map B2R l)) in *. set (Y := rsum (map (fun x => Rabs (B2R x)) l)) in *.
  set (P := rsum (map (fun c => B2R (nmul c s)) l)) in *. set (Q := rsum (map (fun c => Rabs (B2R (nmul c s))) l)) in *.
  replace (B2R x * B2R s - P) with ((B2R x - X) * B2R s + (X * B2R s - P)) by ring.
  eapply Rle_trans; [apply Rabs_triang|]. rewrite Rabs_mult. pose proof (Rabs_pos (B2R s)) as Hs. pose proof (pos_INR (length l)) as Hn.
  cbn [pow]. set (w := (1 + u53) ^ m) in *. set (N := INR (length l)) in *. set (q := Rabs (B2R s)) in *.
  assert (B : Rabs (B2R x - X) * q <= (w - 1) * (Y * q) + t * q) by nra.
  assert (B2 : (w - 1) * (Y * q) <= (w - 1) * ((1 + u53) * Q + N * eta)) by (apply Rmult_le_compat_l; lra). nra.
Qed.
(** Normalising. *)
Lemma quotient_error (y s : f64) : is_finite (ndiv y s) = true -> is_finite s = true ->
  Rabs (B2R y - B2R (ndiv y s) * B2R s) <= u53 * Rabs (B2R y) + eta * Rabs (B2R s).
Proof.
  intros F Fs. destruct (div_finite _ _ F Fs) as [_ Hs]. pose proof (div_error _ _ F Fs) as E.
  set (x := B2R (ndiv y s)) in *.
  replace (B2R y - x * B2R s) with (- ((x - B2R y / B2R s) * B2R s)) by (field; auto).
  rewrite Rabs_Ropp, Rabs_mult. pose proof (Rabs_pos (B2R s)).
  replace (u53 * Rabs (B2R y)) with (u53 * Rabs (B2R y / B2R s) * Rabs (B2R s)); [nra|].
  rewrite Rmult_assoc, <- Rabs_mult. do 2 f_equal. field. auto.
Qed.

(** ** CEEMDAN *)
Lemma nth_map_in {X Y} (f : X -> Y) l i d d' : (i < length l)%nat -> nth i (map f l) d = f (nth i l d').
Proof. intros Hi. rewrite (nth_indep _ d (f d')) by (rewrite map_length; auto). apply map_nth. Qed.
Lemma ceemdan_float {G} (gen : generator f64 G) std emd_of arrival c o S T k C o' i :
  ceemdan gen std emd_of arrival c o S T k = (Ok C, o') -> (i < length S)%nat ->
  (forall r, In r C -> finite (nth i r n0)) ->
  let n := length C in
  finite (nth i S n0) /\
  Rabs (B2R (nth i S n0) - real_sum C i) <=
    u53 * Rabs (B2R (nth i S n0)) + ((1 + u53) ^ n - 1) * real_size C i
    + eta * (Rabs (B2R (std S)) + INR n * (1 + u53) ^ n).
Proof.
  intros E Hi F. cbv zeta. unfold ceemdan in E. set (s := std S) in *. rewrite map_length in E.
  destruct (all_noises gen c (c_random o) (length S)) as [nz g].
  destruct nz as [nz|]; [|discriminate E]. cbn [bind] in E.
  destruct (ceemdan_rows std emd_of arrival c nz (map (fun x => ndiv x s) S) T k) as [M|] eqn:EM; [|discriminate E]. cbn [bind] in E.
  apply pair_equal_spec in E as [E _]. assert (EC : C = map (map (fun x => nmul x s)) M) by congruence. clear E.
  apply rows_spec in EM as (M0 & EM & HS & HL & _). rewrite map_length in EM, HS.
  set (X := map (fun x => ndiv x s) S) in *.
  assert (LX : length X = length S) by (unfold X; apply map_length).
  set (y := nth i S n0). set (x := nth i X n0). set (l := map (fun r => nth i r n0) M0).
  assert (Ex : x = ndiv y s) by (apply (nth_map_in (fun x => ndiv x s)); auto).
  set (r := nsub x (fold_left nadd l n0)).
  assert (EM2 : map (fun r => nth i r n0) M = l ++ [r]).
  { rewrite EM, map_app. cbn [map]. unfold l. do 2 f_equal. unfold r, vsub, x, l.
    rewrite (nth_map2 nsub _ _ i n0 n0 n0); [|lia|rewrite sum_rows_length; [auto|intros; apply (proj1 (Forall_forall _ _) HS); auto]].
    f_equal. change (fold_left nadd (map (fun r0 => nth i r0 n0) M0) n0) with (library_sum M0 i). apply sum_rows_at; auto. }
  assert (SM : forall a, In a M -> length a = length S).
  { intros a Ha. rewrite EM in Ha. apply in_app_iff in Ha as [Ha|[<-|[]]]; [apply (proj1 (Forall_forall _ _) HS); auto|].
    rewrite vsub_length; auto. rewrite sum_rows_length; [auto|intros; apply (proj1 (Forall_forall _ _) HS); auto]. }
  assert (EC2 : map (fun r => nth i r n0) C = map (fun c => nmul c s) (l ++ [r])).
  { rewrite EC, <- EM2, !map_map. apply map_ext_in. intros a Ha. apply (nth_map_in (fun x => nmul x s)). rewrite SM; auto. }
  assert (FC : forall c, In c (l ++ [r]) -> is_finite (nmul c s) = true).
  { intros a Ha. apply (in_map (fun c => nmul c s)) in Ha. rewrite <- EC2 in Ha. apply in_map_iff in Ha as (b & <- & Hb). apply F; auto. }
  assert (Fr : is_finite (nmul r s) = true) by (apply FC, in_app_iff; right; left; auto).
  apply mult_finite in Fr as [Fr Fs]. assert (Fx : is_finite x = true) by (apply minus_finite in Fr; tauto).
  assert (Fx' := Fx). rewrite Ex in Fx'.
  split; [apply (div_finite _ _ Fx' Fs)|].
  pose proof (quotient_error _ _ Fx' Fs) as Q. rewrite <- Ex in Q.
  pose proof (rest_error x l Fr) as R1. cbv zeta in R1. fold r in R1.
  pose proof (scaled_error x s (l ++ [r]) (length l) 0 FC) as R2. cbv zeta in R2.
  rewrite Rplus_0_r in R2. specialize (R2 R1 (Rle_refl 0)). rewrite <- EC2, !map_map in R2.
  assert (Hn : length C = Datatypes.S (length l)).
  { rewrite EC, map_length, EM, app_length. unfold l. rewrite map_length. cbn. lia. }
  rewrite app_length in R2. cbn [length] in R2. rewrite Nat.add_1_r in R2. rewrite Hn.
  change (rsum (map (fun x => B2R (nth i x n0)) C)) with (real_sum C i) in R2.
  change (rsum (map (fun x => Rabs (B2R (nth i x n0))) C)) with (real_size C i) in R2.
  fold y. pose proof u53_pos. pose proof eta_pos. pose proof (pow_ge1 (length l)). pose proof (pos_INR (Datatypes.S (length l))).
  replace (B2R y - real_sum C i) with ((B2R y - B2R x * B2R s) + (B2R x * B2R s - real_sum C i)) by ring.
  eapply Rle_trans; [apply Rabs_triang|]. cbn [pow] in *. set (w := (1 + u53) ^ length l) in *.
  set (N := INR (Datatypes.S (length l))) in *.
  assert (eta * (N * w) <= eta * (N * ((1 + u53) * w))) by (apply Rmult_le_compat_l; [lra|]; apply Rmult_le_compat_l; nra).
  lra.
Qed.

(** ** EEMD *)
Lemma eemd_float {G D} (gen : generator f64 G) (dec : decomposer f64 D) c o S T k E o' :
  eemd gen dec c o S T k = (Ok E, o') -> shaped (length S) E ->
  exists r, eemd_imfs_and_residue o' = Ok (E, r) /\ length r = length S /\
  forall i, (i < length S)%nat -> finite (nth i r n0) ->
  finite (nth i S n0) /\ finite (library_sum E i) /\
  Rabs (B2R (nth i S n0) - (B2R (library_sum E i) + B2R (nth i r n0))) <= u53 * Rabs (B2R (nth i r n0)) /\
  Rabs (B2R (nth i S n0) - real_sum (E ++ [r]) i) <= ((1 + u53) ^ length E - 1) * real_size (E ++ [r]) i.
Proof.
  intros He Hs. destruct (eemd_ok _ _ _ _ _ _ _ _ _ He) as
    (T' & mx & mn & ts & r & _ & _ & _ & _ & _ & _ & _ & _ & H9 & H10 & H11 & _).
  exists r. unfold eemd_imfs_and_residue. rewrite H9, H10. split; [reflexivity|].
  assert (HS : forall a, In a E -> length a = length S) by (apply Forall_forall; exact Hs).
  assert (Hr : length r = length S /\ forall i, (i < length S)%nat -> nth i r n0 = nsub (nth i S n0) (library_sum E i)).
  { unfold minus_rows in H11. destruct E as [|x E].
    - assert (Er : r = map (fun x => nsub x n0) S) by congruence. rewrite Er, map_length. split; auto.
      intros i Hi. rewrite (nth_map_in _ _ _ _ n0) by auto. reflexivity.
    - assert (Hx : length x = length S) by (apply HS; left; auto). rewrite Hx in H11.
      assert (LS : length (sum_rows (length S) (x :: E)) = length S) by (apply sum_rows_length; auto).
      rewrite broadcast2_eq in H11 by auto. assert (Er : r = map2 nsub S (sum_rows (length S) (x :: E))) by congruence.
      rewrite Er. split; [rewrite map2_length_eq; auto|]. intros i Hi.
      rewrite (nth_map2 nsub _ _ i n0 n0 n0) by lia. f_equal. apply sum_rows_at; auto. }
  destruct Hr as [L Hr]. split; auto. intros i Hi F. rewrite (Hr i Hi) in *.
  destruct (minus_finite _ _ F) as [F1 F2]. split; auto. split; auto. split.
  - pose proof (minus_error_r _ _ F) as H1. set (d := B2R (nsub (nth i S n0) (library_sum E i))) in *.
    replace (B2R (nth i S n0) - (B2R (library_sum E i) + d)) with (- (d - (B2R (nth i S n0) - B2R (library_sum E i)))) by ring.
    rewrite Rabs_Ropp. auto.
  - pose proof (rest_error (nth i S n0) (map (fun r => nth i r n0) E) F) as H1. cbv zeta in H1.
    rewrite map_length, !map_app, !map_map in H1. unfold real_sum, real_size. rewrite !map_app. cbn [map] in *.
    change (fold_left nadd (map (fun r0 => nth i r0 n0) E) n0) with (library_sum E i) in H1.
    rewrite <- (Hr i Hi) in H1. exact H1.
Qed.
Close Scope R_scope.
