(** * Float64Proofs: signs and rounding errors in binary64. *)
From Verif Require Import Py PyFacts QcFacts Extrema Emd Spec Float64 ExtremaProofs ExtremaSpec EmdProofs EmdExact.
From Flocq Require Import Core BinarySingleNaN Plus_error Relative.
From Coq Require Import Reals Lra QArith Qcanon Qreals Lia List.
Import ListNotations.
Open Scope Z_scope.

Notation fexp64 := (FLT_exp (-1074) 53).
Notation rnd := (round radix2 fexp64 ZnearestE).
Notation B2R := (@B2R 53 1024).

#[local] Instance v64 : Valid_exp fexp64 := FLT_exp_valid (-1074) 53.
#[local] Instance m64 : Monotone_exp fexp64 := FLT_exp_monotone (-1074) 53.
#[local] Instance z64 : Exp_not_FTZ fexp64.
Proof. intros e. unfold FLT_exp. lia. Qed.
Lemma mode_rnd m : m = mode_NE -> round_mode m = ZnearestE.
Proof. intros ->. reflexivity. Qed.

(** ** The value of a double *)
Lemma value_B2R (x : f64) : Q2R (value x) = B2R x.
Proof.
  destruct x as [s|s| |s m e Hb]; try (cbn; unfold Q2R; cbn; lra).
  unfold value, BinarySingleNaN.B2R, F2R. cbn [Fnum Fexp]. unfold cond_Zopp.
  assert (E : (if s then Z.neg m else Z.pos m) = (if s then - Z.pos m else Z.pos m)) by (destruct s; reflexivity).
  rewrite E. set (z := if s then _ else _). destruct (Z.leb_spec 0 e) as [He|He].
  - change (this (Q2Qc (inject_Z (z * 2 ^ e)))) with (Qred (inject_Z (z * 2 ^ e))).
    rewrite (Qeq_eqR _ _ (Qred_correct _)). unfold Q2R, inject_Z. cbn [Qnum Qden]. rewrite mult_IZR.
    change 2%Z with (radix_val radix2) at 1. rewrite (IZR_Zpower radix2) by auto. lra.
  - change (this (Q2Qc (z # Z.to_pos (2 ^ (- e))))) with (Qred (z # Z.to_pos (2 ^ (- e)))).
    rewrite (Qeq_eqR _ _ (Qred_correct _)). unfold Q2R. cbn [Qnum Qden].
    rewrite Z2Pos.id by (apply Z.pow_pos_nonneg; lia). 
    change 2%Z with (radix_val radix2) at 1. rewrite (IZR_Zpower radix2) by lia. rewrite bpow_opp, Rinv_inv. reflexivity.
Qed.
Lemma Qc_ltb_R (a b : Qc) : Qc_ltb a b = Rlt_bool (Q2R a) (Q2R b).
Proof.
  unfold Qc_ltb. destruct (Qcompare_spec a b) as [E|E|E]; symmetry.
  - apply Rlt_bool_false. rewrite (Qeq_eqR _ _ E). lra.
  - apply Rlt_bool_true, Qlt_Rlt, E.
  - apply Rlt_bool_false. apply Qlt_Rlt in E. lra.
Qed.
Lemma Qc_eqb_R (a b : Qc) : Qc_eqb a b = Req_bool (Q2R a) (Q2R b).
Proof.
  unfold Qc_eqb. destruct (Qcompare_spec a b) as [E|E|E]; symmetry.
  - apply Req_bool_true, Qeq_eqR, E.
  - apply Req_bool_false. apply Qlt_Rlt in E. lra.
  - apply Req_bool_false. apply Qlt_Rlt in E. lra.
Qed.
Lemma Q2R_Qc0 : Q2R (Q2Qc 0) = 0%R. Proof. cbn. unfold Q2R. cbn. lra. Qed.
Lemma Q2R_minus (a b : Qc) : Q2R (a - b)%Qc = (Q2R a - Q2R b)%R.
Proof.
  change (this (a - b)%Qc) with (Qred (a + (Qred (- b)))). rewrite (Qeq_eqR _ _ (Qred_correct _)), Q2R_plus.
  rewrite (Qeq_eqR _ _ (Qred_correct _)), Q2R_opp. lra.
Qed.
Lemma Q2R_mult (a b : Qc) : Q2R (a * b)%Qc = (Q2R a * Q2R b)%R.
Proof. change (this (a * b)%Qc) with (Qred (a * b)). rewrite (Qeq_eqR _ _ (Qred_correct _)). apply Q2R_mult. Qed.

(** ** Signs.  [signs d r]: the double [d] compares with zero as the number [r] does. *)
Definition signs (d : f64) (r : R) : Prop :=
  nltb d n0 = Rlt_bool r 0 /\ nltb n0 d = Rlt_bool 0 r /\ is0 d = Req_bool r 0.

Lemma f64_zero : (n0 : f64) = B754_zero false. Proof. reflexivity. Qed.
Lemma fin_signs (d : f64) : is_finite d = true -> signs d (B2R d).
Proof.
  intros F. unfold signs, is0. rewrite f64_zero. cbn [nltb neqb F64Num].
  rewrite !Bltb_correct, Beqb_correct by auto. auto.
Qed.
Lemma signs_same (d : f64) r r' : signs d r -> ((r < 0 <-> r' < 0) /\ (0 < r <-> 0 < r'))%R -> signs d r'.
Proof.
  intros (H1 & H2 & H3) [Ha Hb]. unfold signs. rewrite H1, H2, H3.
  repeat split.
  - destruct (Rlt_bool_spec r 0); destruct (Rlt_bool_spec r' 0); auto; exfalso; tauto || lra.
  - destruct (Rlt_bool_spec 0 r); destruct (Rlt_bool_spec 0 r'); auto; exfalso; tauto || lra.
  - assert (Hz : r = 0%R <-> r' = 0%R).
    { split; intros Hz; subst.
      - destruct (Rtotal_order r' 0) as [L|[L|L]]; auto; [apply Ha in L|apply Hb in L]; lra.
      - destruct (Rtotal_order r 0) as [L|[L|L]]; auto; [apply Ha in L|apply Hb in L]; lra. }
    destruct (Req_bool_spec r 0), (Req_bool_spec r' 0); auto; exfalso; tauto.
Qed.
Lemma inf_signs (s : bool) r : (if s then r < 0 else 0 < r)%R -> signs (B754_infinity s) r.
Proof.
  intros H. unfold signs, is0. destruct s; cbn; repeat split; symmetry.
  - apply Rlt_bool_true; auto.
  - apply Rlt_bool_false; lra.
  - apply Req_bool_false; lra.
  - apply Rlt_bool_false; lra.
  - apply Rlt_bool_true; auto.
  - apply Req_bool_false; lra.
Qed.
Lemma signs_inf (s : bool) r : signs (B754_infinity s) r -> (if s then r < 0 else 0 < r)%R.
Proof.
  intros (H1 & H2 & _). destruct s; cbn in *.
  - destruct (Rlt_bool_spec r 0); auto; discriminate.
  - destruct (Rlt_bool_spec 0 r); auto; discriminate.
Qed.
Lemma signs_iff (d : f64) r : signs d r -> is_finite d = true ->
  ((B2R d < 0 <-> r < 0) /\ (0 < B2R d <-> 0 < r))%R.
Proof.
  intros (H1 & H2 & _) F. destruct (fin_signs d F) as (G1 & G2 & _). rewrite G1 in H1. rewrite G2 in H2.
  destruct (Rlt_bool_spec (B2R d) 0), (Rlt_bool_spec r 0); try discriminate;
  destruct (Rlt_bool_spec 0 (B2R d)), (Rlt_bool_spec 0 r); try discriminate; lra.
Qed.

Lemma bsign_pos (x : f64) : is_finite x = true -> Bsign x = false -> (0 <= B2R x)%R.
Proof.
  destruct x as [s|s| |s m e Hb]; try discriminate; intros _ Hs; cbn in Hs; subst.
  - cbn. lra.
  - apply F2R_ge_0. cbn. lia.
Qed.
Lemma bsign_neg (x : f64) : is_finite x = true -> Bsign x = true -> (B2R x <= 0)%R.
Proof.
  destruct x as [s|s| |s m e Hb]; try discriminate; intros _ Hs; cbn in Hs; subst.
  - cbn. lra.
  - apply F2R_le_0. cbn. lia.
Qed.
Lemma overflow_pos r : (bpow radix2 1024 <= Rabs (rnd r))%R -> r <> 0%R.
Proof.
  intros H ->. rewrite round_0, Rabs_R0 in H by apply valid_rnd_N. pose proof (bpow_gt_0 radix2 1024). lra.
Qed.

Lemma fmt (x : f64) : generic_format radix2 fexp64 (B2R x).
Proof. apply generic_format_B2R. Qed.

(** Subtraction never gets the sign wrong. *)
Lemma minus_signs (x y : f64) : is_finite x = true -> is_finite y = true ->
  signs (nsub x y) (B2R x - B2R y).
Proof.
  intros Fx Fy. pose proof (Bminus_correct 53 1024 f64_prec f64_emax mode_NE x y Fx Fy) as H.
  change (nsub x y) with (Bminus mode_NE x y).
  change (SpecFloat.fexp 53 1024) with fexp64 in H. rewrite (mode_rnd _ eq_refl) in H.
  destruct (Rlt_bool_spec (Rabs (rnd (B2R x - B2R y))) (bpow radix2 1024)) as [Hlt|Hge].
  - destruct H as (E & F & _). apply (signs_same _ (B2R (Bminus mode_NE x y))); [apply fin_signs; auto|]. rewrite E.
    assert (Hn : (B2R x - B2R y <> 0)%R -> (rnd (B2R x - B2R y) <> 0)%R).
    { intros Hn. apply (round_plus_neq_0 radix2 fexp64 ZnearestE (B2R x) (- B2R y)); [apply fmt|apply generic_format_opp, fmt|exact Hn]. }
    assert (Hp : (0 <= B2R x - B2R y)%R -> (0 <= rnd (B2R x - B2R y))%R).
    { intros Hp. apply round_ge_generic; [apply v64|apply valid_rnd_N|apply generic_format_0|auto]. }
    assert (Hm : (B2R x - B2R y <= 0)%R -> (rnd (B2R x - B2R y) <= 0)%R).
    { intros Hm. apply round_le_generic; [apply v64|apply valid_rnd_N|apply generic_format_0|auto]. }
    destruct (Rtotal_order (B2R x - B2R y) 0) as [L|[L|L]].
    + specialize (Hm (Rlt_le _ _ L)). specialize (Hn (Rlt_not_eq _ _ L)). split; split; lra.
    + rewrite L, round_0 by apply valid_rnd_N. split; split; lra.
    + specialize (Hp (Rlt_le _ _ L)). assert (B2R x - B2R y <> 0)%R by lra. specialize (Hn H). split; split; lra.
  - destruct H as [H Hs]. apply overflow_pos in Hge.
    assert (E : Bminus mode_NE x y = B754_infinity (Bsign x)).
    { apply B2SF_inj. rewrite H. reflexivity. }
    rewrite E. apply inf_signs. destruct (Bsign x) eqn:Sx.
    + pose proof (bsign_neg x Fx Sx). destruct (Bsign y) eqn:Sy; [discriminate|]. pose proof (bsign_pos y Fy Sy). lra.
    + pose proof (bsign_pos x Fx Sx). destruct (Bsign y) eqn:Sy; [|discriminate]. pose proof (bsign_neg y Fy Sy). lra.
Qed.

(** Not too small: zero, infinite, or at least 2^-537 in size. *)
Definition sizable (d : f64) : Prop :=
  is_finite d = false \/ B2R d = 0%R \/ (bpow radix2 (-537) <= Rabs (B2R d))%R.

Lemma sign_cases (d : f64) r : signs d r ->
  (exists s, d = B754_infinity s) \/ is_finite d = true.
Proof.
  destruct d as [s|s| |s m e Hb]; eauto. intros (H1 & H2 & H3). exfalso. cbn in *.
  destruct (Rlt_bool_spec r 0), (Rlt_bool_spec 0 r), (Req_bool_spec r 0); try discriminate. lra.
Qed.
Lemma inf_times s (y : f64) r u : (if s : bool then r < 0 else 0 < r)%R -> signs y u ->
  nltb (nmul (B754_infinity s) y) n0 = Rlt_bool (r * u) 0 /\ nltb (nmul y (B754_infinity s)) n0 = Rlt_bool (r * u) 0.
Proof.
  intros Hr Hy. pose proof (sign_cases _ _ Hy) as C.
  destruct y as [t|t| |t m e Hb]; try (destruct C as [[? C]|C]; discriminate).
  - apply signs_iff in Hy; [|reflexivity]. cbn in Hy. assert (u = 0%R) by (destruct (Rtotal_order u 0) as [|[|]]; lra). subst.
    rewrite Rmult_0_r, Rlt_bool_false by lra. split; reflexivity.
  - apply signs_inf in Hy. cbn. destruct s, t; cbn; split; symmetry;
      solve [apply Rlt_bool_true; nra|apply Rlt_bool_false; nra].
  - pose proof (signs_iff _ _ Hy eq_refl) as [G1 G2].
    assert (Hu : (if t then u < 0 else 0 < u)%R).
    { destruct t; [apply G1; apply F2R_lt_0|apply G2; apply F2R_gt_0]; cbn; lia. }
    cbn. destruct s, t; cbn; split; symmetry; solve [apply Rlt_bool_true; nra|apply Rlt_bool_false; nra].
Qed.
Lemma finite_times (x y : f64) : is_finite x = true -> is_finite y = true -> sizable x -> sizable y ->
  nltb (nmul x y) n0 = Rlt_bool (B2R x * B2R y) 0.
Proof.
  intros Fx Fy Zx Zy. pose proof (Bmult_correct 53 1024 f64_prec f64_emax mode_NE x y) as H.
  change (nmul x y) with (Bmult mode_NE x y).
  change (SpecFloat.fexp 53 1024) with fexp64 in H. rewrite (mode_rnd _ eq_refl) in H.
  destruct (Rlt_bool_spec (Rabs (rnd (B2R x * B2R y))) (bpow radix2 1024)) as [Hlt|Hge].
  - destruct H as (E & F & _). rewrite Fx, Fy in F. rewrite f64_zero. cbn [nltb F64Num].
    rewrite Bltb_correct, E by auto. change (B2R (B754_zero false)) with 0%R.
    destruct (Rlt_bool_spec (B2R x * B2R y) 0) as [L|L].
    + apply Rlt_bool_true.
      destruct Zx as [Zx|[Zx|Zx]]; [congruence|rewrite Zx in L; lra|].
      destruct Zy as [Zy|[Zy|Zy]]; [congruence|rewrite Zy in L; lra|].
      assert (Hb : (bpow radix2 (-1074) <= Rabs (B2R x * B2R y))%R).
      { rewrite Rabs_mult. change (-1074) with (-537 + -537). rewrite bpow_plus.
        apply Rmult_le_compat; auto; apply bpow_ge_0. }
      rewrite Rabs_left in Hb by auto.
      assert (Hr : (rnd (B2R x * B2R y) <= - bpow radix2 (-1074))%R).
      { apply round_le_generic; [apply v64|apply valid_rnd_N|apply generic_format_opp, generic_format_bpow; unfold FLT_exp; cbn; lia|lra]. }
      pose proof (bpow_gt_0 radix2 (-1074)). lra.
    + apply Rlt_bool_false. apply round_ge_generic; [apply v64|apply valid_rnd_N|apply generic_format_0|auto].
  - apply overflow_pos in Hge.
    assert (E : Bmult mode_NE x y = B754_infinity (xorb (Bsign x) (Bsign y))).
    { apply B2SF_inj. rewrite H. reflexivity. }
    rewrite E. clear E H.
    assert (Hx : B2R x <> 0%R) by (intros Z; rewrite Z, Rmult_0_l in Hge; auto).
    assert (Hy : B2R y <> 0%R) by (intros Z; rewrite Z, Rmult_0_r in Hge; auto).
    destruct (Bsign x) eqn:Sx, (Bsign y) eqn:Sy;
      repeat match goal with
      | F : is_finite ?z = true, S : Bsign ?z = true |- _ => pose proof (bsign_neg z F S); clear S
      | F : is_finite ?z = true, S : Bsign ?z = false |- _ => pose proof (bsign_pos z F S); clear S
      end; cbn; symmetry.
    + apply Rlt_bool_false; nra.
    + apply Rlt_bool_true; nra.
    + apply Rlt_bool_true; nra.
    + apply Rlt_bool_false; nra.
Qed.
Lemma mult_neg (x y : f64) r s : signs x r -> signs y s -> sizable x -> sizable y ->
  nltb (nmul x y) n0 = Rlt_bool (r * s) 0.
Proof.
  intros Hx Hy Zx Zy.
  destruct (sign_cases _ _ Hx) as [[sx ->]|Fx]; [apply inf_times; auto; apply signs_inf; auto|].
  destruct (sign_cases _ _ Hy) as [[sy ->]|Fy].
  { rewrite Rmult_comm. apply inf_times; auto. apply signs_inf; auto. }
  rewrite finite_times by auto.
  destruct (signs_iff _ _ Hx Fx) as [A1 A2]. destruct (signs_iff _ _ Hy Fy) as [B1 B2].
  assert (G : forall a b, (a * b < 0 <-> (a < 0 /\ 0 < b) \/ (0 < a /\ b < 0))%R).
  { intros a b. split; [|intros [[]|[]]; nra]. intros Hn.
    destruct (Rtotal_order a 0) as [La|[La|La]]; destruct (Rtotal_order b 0) as [Lb|[Lb|Lb]]; subst; try nra; tauto. }
  destruct (Rlt_bool_spec (r * s) 0) as [L|L].
  - apply Rlt_bool_true. apply G. apply G in L. tauto.
  - apply Rlt_bool_false. apply Rnot_lt_le. intros Hn. apply Rle_not_lt in L. apply L. apply G. apply G in Hn. tauto.
Qed.

(** A difference that is not exactly zero and not tiny stays sizable. *)
Lemma minus_sizable (x y : f64) : is_finite x = true -> is_finite y = true ->
  (B2R x - B2R y = 0 \/ bpow radix2 (-537) <= Rabs (B2R x - B2R y))%R -> sizable (nsub x y).
Proof.
  intros Fx Fy Hd. pose proof (Bminus_correct 53 1024 f64_prec f64_emax mode_NE x y Fx Fy) as H.
  change (nsub x y) with (Bminus mode_NE x y). unfold sizable.
  change (SpecFloat.fexp 53 1024) with fexp64 in H. rewrite (mode_rnd _ eq_refl) in H.
  destruct (Rlt_bool_spec (Rabs (rnd (B2R x - B2R y))) (bpow radix2 1024)) as [Hlt|Hge].
  - destruct H as (E & F & _). right. rewrite E. destruct Hd as [->|Hd]; [left; apply round_0, valid_rnd_N|right].
    apply abs_round_ge_generic; auto; [apply v64|apply valid_rnd_N|apply generic_format_bpow; unfold FLT_exp; cbn; lia].
  - left. destruct H as [H _]. assert (E : Bminus mode_NE x y = B754_infinity (Bsign x)).
    { apply B2SF_inj. rewrite H. reflexivity. }
    rewrite E. reflexivity.
Qed.

(** ** Extrema: the same indices as in exact arithmetic *)
Definition like (a : f64) (b : Qc) : Prop := signs a (Q2R b) /\ sizable a.
Lemma like_bools a b : like a b ->
  nltb a n0 = nltb b n0 /\ nltb n0 a = nltb n0 b /\ is0 a = is0 b.
Proof.
  intros [(H1 & H2 & H3) _]. unfold is0 in *. rewrite H1, H2, H3. cbn [nltb neqb QcNum].
  rewrite !Qc_ltb_R, Qc_eqb_R. change (Q2R (n0 : Qc)) with (Q2R (Q2Qc 0)). rewrite Q2R_Qc0. auto.
Qed.
Lemma like_mult a b c d : like a b -> like c d -> nltb (nmul a c) n0 = nltb (nmul b d) n0.
Proof.
  intros [H1 H2] [H3 H4]. rewrite (mult_neg a c (Q2R b) (Q2R d)) by auto. cbn [nltb nmul QcNum].
  rewrite Qc_ltb_R, Q2R_mult. change (Q2R (n0 : Qc)) with (Q2R (Q2Qc 0)). rewrite Q2R_Qc0. reflexivity.
Qed.
Lemma adj_like {X Y} (R : X -> Y -> Prop) (f : X -> X -> bool) (g : Y -> Y -> bool) l l' : Forall2 R l l' ->
  (forall a b c d, R a b -> R c d -> f a c = g b d) -> adj f l = adj g l'.
Proof.
  intros HF Hfg. unfold adj. induction HF as [|a b l l' Hab HF IH]; [reflexivity|].
  destruct HF as [|c d l l' Hcd HF]; [reflexivity|]. cbn [tl map2] in *. rewrite IH. f_equal. auto.
Qed.
Lemma map_like {X Y} (R : X -> Y -> Prop) (f : X -> bool) (g : Y -> bool) l l' : Forall2 R l l' ->
  (forall a b, R a b -> f a = g b) -> map f l = map g l'.
Proof. intros HF Hfg. induction HF; [reflexivity|]. cbn [map]. rewrite IHHF. f_equal. auto. Qed.
Lemma map2_like {X Y} (R : X -> Y -> Prop) (f : X -> X -> bool) (g : Y -> Y -> bool) l l' k k' : Forall2 R l l' -> Forall2 R k k' ->
  (forall a b c d, R a b -> R c d -> f a c = g b d) -> map2 f l k = map2 g l' k'.
Proof.
  intros HF HK Hfg. revert k k' HK. induction HF; intros k k' HK; [reflexivity|]. destruct HK; [reflexivity|].
  cbn [map2]. rewrite (IHHF _ _ HK). f_equal. auto.
Qed.
Lemma get_like {X Y} (R : X -> Y -> Prop) l l' i : Forall2 R l l' ->
  match py_get l i, py_get l' i with Ok a, Ok b => R a b | Raise e, Raise e' => e = e' | _, _ => False end.
Proof.
  intros HF. unfold py_get. assert (EL : zlen l = zlen l') by (unfold zlen; f_equal; clear -HF; induction HF; cbn; congruence).
  rewrite <- EL. cbv zeta. match goal with |- context [if ?b then _ else _] => destruct b end; [reflexivity|].
  match goal with |- context [nth_error l ?k] => generalize k end. clear EL. intros j.
  revert j. induction HF; intros [|j]; cbn; auto. apply IHHF.
Qed.
Lemma take_like {X Y} (R : X -> Y -> Prop) l l' idx : Forall2 R l l' ->
  match py_take l idx, py_take l' idx with Ok a, Ok b => Forall2 R a b | Raise e, Raise e' => e = e' | _, _ => False end.
Proof.
  intros HF. induction idx as [|i idx IH]; [constructor|]. unfold py_take in *. cbn [mapM].
  pose proof (get_like R l l' i HF) as G. destruct (py_get l i), (py_get l' i); try contradiction; cbn [bind]; auto.
  destruct (mapM (py_get l) idx), (mapM (py_get l') idx); try contradiction; cbn [bind]; auto.
Qed.

Lemma idx_like (S : list f64) (S' : list Qc) : Forall2 like (ndiff S) (ndiff S') -> zlen S = zlen S' ->
  extrema_idx S = extrema_idx S'.
Proof.
  intros HF EL. unfold extrema_idx. cbv zeta.
  assert (E1 : strict_min_idx (ndiff S) = strict_min_idx (ndiff S')).
  { unfold strict_min_idx. f_equal. f_equal. apply (adj_like like); auto. intros a b c d H1 H2.
    rewrite (like_mult a b c d) by auto. destruct (like_bools a b H1) as (-> & _). reflexivity. }
  assert (E2 : strict_max_idx (ndiff S) = strict_max_idx (ndiff S')).
  { unfold strict_max_idx. f_equal. f_equal. apply (adj_like like); auto. intros a b c d H1 H2.
    rewrite (like_mult a b c d) by auto. destruct (like_bools a b H1) as (_ & -> & _). reflexivity. }
  assert (E3 : map is0 (ndiff S) = map is0 (ndiff S')).
  { apply (map_like like); auto. intros a b H1. apply like_bools; auto. }
  rewrite E1, E2, E3, EL. destruct (existsb _ _); [|reflexivity].
  destruct (drop_last_run _ _) as [|r rs]; [reflexivity|]. set (runs := r :: rs).
  pose proof (take_like like _ _ (map (fun r => fst r - 1) runs) HF) as G1.
  destruct (py_take (ndiff S) _) as [b|], (py_take (ndiff S') _) as [b'|]; try contradiction; cbn [bind]; [|congruence].
  pose proof (take_like like _ _ (map snd runs) HF) as G2.
  destruct (py_take (ndiff S) _) as [a|], (py_take (ndiff S') _) as [a'|]; try contradiction; cbn [bind]; [|congruence].
  assert (M1 : map2 (fun b a : f64 => nltb n0 b && nltb a n0) b a = map2 (fun b a : Qc => nltb n0 b && nltb a n0) b' a').
  { apply (map2_like like); auto. intros x y u v H1 H2. destruct (like_bools _ _ H1) as (_ & -> & _).
    destruct (like_bools _ _ H2) as (-> & _). reflexivity. }
  assert (M2 : map2 (fun b a : f64 => nltb b n0 && nltb n0 a) b a = map2 (fun b a : Qc => nltb b n0 && nltb n0 a) b' a').
  { apply (map2_like like); auto. intros x y u v H1 H2. destruct (like_bools _ _ H1) as (-> & _).
    destruct (like_bools _ _ H2) as (_ & -> & _). reflexivity. }
  rewrite M1, M2. reflexivity.
Qed.

Lemma tiniest_R : Q2R tiniest = bpow radix2 (-537).
Proof.
  unfold tiniest. change (this (Q2Qc (1 # 2 ^ 537))) with (Qred (1 # 2 ^ 537)).
  rewrite (Qeq_eqR _ _ (Qred_correct _)). unfold Q2R. cbn [Qnum Qden]. rewrite Rmult_1_l.
  change (-537) with (- (537)). rewrite bpow_opp, <- IZR_Zpower by lia. reflexivity.
Qed.
Lemma apart_R (x y : f64) : apart (value x) (value y) ->
  (B2R y - B2R x = 0 \/ bpow radix2 (-537) <= Rabs (B2R y - B2R x))%R.
Proof.
  rewrite <- !value_B2R. intros [E|[E|E]]; [left; rewrite E; lra|right|right];
  apply Qle_Rle in E; rewrite tiniest_R, Q2R_minus in E; pose proof (bpow_gt_0 radix2 (-537)).
  - rewrite Rabs_left by lra. lra.
  - rewrite Rabs_right by lra. lra.
Qed.
Lemma ndiff_like (S : list f64) : Forall finite S ->
  (forall i, 0 <= i < zlen S - 1 -> apart (sample (map value S) i) (sample (map value S) (i + 1))) ->
  Forall2 like (ndiff S) (ndiff (map value S)).
Proof.
  intros HF. induction HF as [|x S Hx HF IH]; intros HA; [constructor|].
  destruct HF as [|y S Hy HF]; [constructor|]. unfold ndiff, adj in *. cbn [map tl map2] in *. constructor.
  - assert (A : apart (value x) (value y)) by (apply (HA 0); unfold zlen; cbn [length]; lia).
    split; [|apply minus_sizable; auto; apply apart_R; auto].
    cbn [nsub QcNum]. rewrite Q2R_minus, !value_B2R. apply minus_signs; auto.
  - apply IH. intros i Hi. unfold zlen in *. cbn [length] in *. specialize (HA (i + 1)). unfold sample in *.
    replace (Z.to_nat (i + 1 + 1)) with (Datatypes.S (Z.to_nat (i + 1))) in HA by lia.
    replace (Z.to_nat (i + 1)) with (Datatypes.S (Z.to_nat i)) in * by lia. apply HA. lia.
Qed.
Lemma f64_extrema_idx (S : list f64) : Forall finite S ->
  (forall i, 0 <= i < zlen S - 1 -> apart (sample (map value S) i) (sample (map value S) (i + 1))) ->
  extrema_idx S = extrema_idx (map value S).
Proof. intros. apply idx_like; [apply ndiff_like; auto|unfold zlen; rewrite map_length; auto]. Qed.

Lemma f64_zero_crossings (S : list f64) : Forall finite S ->
  (forall x, In x S -> apart (value x) 0%Qc) -> zero_crossings S = zero_crossings (map value S).
Proof.
  intros HF HA. assert (HL : Forall2 like S (map value S)).
  { induction HF as [|x S Hx HF IH]; constructor; [|apply IH; intros; apply HA; right; auto].
    split; [rewrite value_B2R; apply fin_signs; auto|]. right. specialize (HA x (or_introl eq_refl)).
    rewrite <- value_B2R. destruct HA as [E|[E|E]]; [left; rewrite E; apply Q2R_Qc0|right|right];
    apply Qle_Rle in E; rewrite tiniest_R, Q2R_minus, Q2R_Qc0 in E; pose proof (bpow_gt_0 radix2 (-537)).
    - rewrite Rabs_right by lra. lra.
    - rewrite Rabs_left by lra. lra. }
  unfold zero_crossings. cbv zeta.
  assert (E1 : adj (fun a b : f64 => nltb (nmul a b) n0) S = adj (fun a b : Qc => nltb (nmul a b) n0) (map value S)).
  { apply (adj_like like); auto. intros; apply like_mult; auto. }
  assert (E2 : map is0 S = map is0 (map value S)) by (apply (map_like like); auto; intros; apply like_bools; auto).
  rewrite E1, E2. reflexivity.
Qed.

Definition at_ (l : list f64) (i : Z) : f64 := nth (Z.to_nat i) l n0.
Lemma take_at (l : list f64) idx : (forall i, In i idx -> 0 <= i < zlen l) -> py_take l idx = Ok (map (at_ l) idx).
Proof.
  intros Hi. unfold py_take. induction idx as [|i idx IH]; [reflexivity|]. cbn [mapM map].
  rewrite (py_get_nonneg l i n0) by (apply Hi; left; auto). cbn [bind]. rewrite IH by (intros; apply Hi; right; auto). reflexivity.
Qed.
Lemma f64_extrema (T S : list f64) : length T = length S -> Forall finite S ->
  (forall i, 0 <= i < zlen S - 1 -> apart (sample (map value S) i) (sample (map value S) (i + 1))) ->
  exists e M m, find_extrema Simple T S = Ok e /\
    max_pos e = map (at_ T) M /\ max_val e = map (at_ S) M /\
    min_pos e = map (at_ T) m /\ min_val e = map (at_ S) m /\
    zincreasing M /\ zincreasing m /\
    (forall i, In i M <-> reported_max (map value S) i) /\ (forall i, In i m <-> reported_min (map value S) i) /\
    indzer e = zero_crossings S.
Proof.
  intros HL HF HA. destruct (extrema_idx_spec (map value S)) as (M & m & E & I1 & I2 & HM & Hm).
  rewrite <- f64_extrema_idx in E by auto.
  assert (RM : forall i, In i M -> 0 <= i < zlen S) by (intros i Hi; apply HM, rep_range in Hi; unfold zlen in *; rewrite map_length in Hi; lia).
  assert (Rm : forall i, In i m -> 0 <= i < zlen S) by (intros i Hi; apply Hm, rep_range in Hi; unfold zlen in *; rewrite map_length in Hi; lia).
  assert (HT : zlen T = zlen S) by (unfold zlen; congruence).
  unfold find_extrema, find_extrema_simple. rewrite E. cbn [bind].
  rewrite !take_at by (rewrite ?HT; auto). cbn [bind].
  eexists. exists M, m. split; [reflexivity|]. cbn [max_pos max_val min_pos min_val indzer].
  repeat (split; [reflexivity || assumption|]). split; [intros i; rewrite HM; apply rep_max_iff|].
  split; [intros i; rewrite Hm; apply rep_min_iff|reflexivity].
Qed.

(** ** Rounding errors *)
Notation u53 := (bpow radix2 (-53)).
Open Scope R_scope.
Lemma eps_small eps : Rabs eps <= u_ro radix2 53 / (1 + u_ro radix2 53) -> Rabs eps <= u53.
Proof.
  intros H. eapply Rle_trans; [exact H|].
  assert (E : u_ro radix2 53 = u53).
  { unfold u_ro. change (/ 2) with (bpow radix2 (-1)). rewrite <- bpow_plus. reflexivity. }
  rewrite E. pose proof (bpow_gt_0 radix2 (-53)).
  apply Rmult_le_reg_r with (1 + u53); [lra|]. unfold Rdiv. rewrite Rmult_assoc, Rinv_l by lra. nra.
Qed.
Lemma plus_finite (x y : f64) : is_finite (nadd x y) = true -> is_finite x = true /\ is_finite y = true.
Proof. destruct x as [[]|[]| |[]], y as [[]|[]| |[]]; cbn; auto; discriminate. Qed.
Lemma minus_finite (x y : f64) : is_finite (nsub x y) = true -> is_finite x = true /\ is_finite y = true.
Proof. destruct x as [[]|[]| |[]], y as [[]|[]| |[]]; cbn; auto; discriminate. Qed.
Lemma plus_error (x y : f64) : is_finite (nadd x y) = true ->
  B2R (nadd x y) = rnd (B2R x + B2R y) /\ Rabs (B2R (nadd x y) - (B2R x + B2R y)) <= u53 * Rabs (B2R x + B2R y).
Proof.
  intros F. destruct (plus_finite x y F) as [Fx Fy].
  pose proof (Bplus_correct 53 1024 f64_prec f64_emax mode_NE x y Fx Fy) as H.
  change (nadd x y) with (Bplus mode_NE x y) in *.
  change (SpecFloat.fexp 53 1024) with fexp64 in H. rewrite (mode_rnd _ eq_refl) in H.
  destruct (Rlt_bool_spec (Rabs (rnd (B2R x + B2R y))) (bpow radix2 1024)) as [Hlt|Hge].
  - destruct H as (E & _). split; [exact E|]. rewrite E.
    destruct (FLT_plus_error_N_ex radix2 (-1074) 53 (fun z => negb (Z.even z)) (B2R x) (B2R y) (fmt x) (fmt y)) as (eps & He & Er).
    apply eps_small in He. rewrite Er.
    replace ((B2R x + B2R y) * (1 + eps) - (B2R x + B2R y)) with ((B2R x + B2R y) * eps) by ring.
    rewrite Rabs_mult, Rmult_comm. apply Rmult_le_compat_r; auto. apply Rabs_pos.
  - destruct H as [H _]. exfalso. assert (E : Bplus mode_NE x y = B754_infinity (Bsign x)).
    { apply B2SF_inj. rewrite H. reflexivity. }
    rewrite E in F. discriminate.
Qed.
Lemma minus_error (x y : f64) : is_finite (nsub x y) = true ->
  Rabs (B2R (nsub x y) - (B2R x - B2R y)) <= u53 * Rabs (B2R x - B2R y).
Proof.
  intros F. destruct (minus_finite x y F) as [Fx Fy].
  pose proof (Bminus_correct 53 1024 f64_prec f64_emax mode_NE x y Fx Fy) as H.
  change (nsub x y) with (Bminus mode_NE x y) in *.
  change (SpecFloat.fexp 53 1024) with fexp64 in H. rewrite (mode_rnd _ eq_refl) in H.
  destruct (Rlt_bool_spec (Rabs (rnd (B2R x - B2R y))) (bpow radix2 1024)) as [Hlt|Hge].
  - destruct H as (E & _). rewrite E.
    destruct (FLT_plus_error_N_ex radix2 (-1074) 53 (fun z => negb (Z.even z)) (B2R x) (- B2R y) (fmt x)) as (eps & He & Er);
      [apply generic_format_opp, fmt|].
    apply eps_small in He. unfold Rminus in *. rewrite Er.
    replace ((B2R x + - B2R y) * (1 + eps) + - (B2R x + - B2R y)) with ((B2R x + - B2R y) * eps) by ring.
    rewrite Rabs_mult, Rmult_comm. apply Rmult_le_compat_r; auto. apply Rabs_pos.
  - destruct H as [H _]. exfalso. assert (E : Bminus mode_NE x y = B754_infinity (Bsign x)).
    { apply B2SF_inj. rewrite H. reflexivity. }
    rewrite E in F. discriminate.
Qed.

(** Running sums. *)
Lemma fold_finite l (a : f64) : is_finite (fold_left nadd l a) = true ->
  is_finite a = true /\ forall x, In x l -> is_finite x = true.
Proof.
  revert a. induction l as [|x l IH]; cbn [fold_left]; intros a F; [split; [auto|contradiction]|].
  apply IH in F as [F Fl]. apply plus_finite in F as [Fa Fx]. split; auto. intros y [<-|Hy]; auto.
Qed.
Lemma fold_error l (a : f64) : is_finite (fold_left nadd l a) = true ->
  Rabs (B2R (fold_left nadd l a) - (B2R a + rsum (map B2R l)))
  <= ((1 + u53) ^ length l - 1) * (Rabs (B2R a) + rsum (map (fun x => Rabs (B2R x)) l)).
Proof.
  revert a. induction l as [|x l IH]; cbn [fold_left length map rsum fold_right pow]; intros a F.
  - rewrite Rplus_0_r, Rminus_diag_eq, Rabs_R0 by reflexivity. lra.
  - assert (Fp : is_finite (nadd a x) = true) by (apply fold_finite in F; tauto).
    specialize (IH (nadd a x) F). destruct (plus_error a x Fp) as [_ Ep].
    set (s := B2R (fold_left nadd l (nadd a x))) in *. set (p := B2R (nadd a x)) in *.
    set (X := rsum (map B2R l)) in *. set (Y := rsum (map (fun x => Rabs (B2R x)) l)) in *.
    change (fold_right Rplus 0 (map B2R l)) with X in *. change (fold_right Rplus 0 (map (fun x => Rabs (B2R x)) l)) with Y in *.
    set (w := (1 + u53) ^ length l) in *.
    assert (Hw : 1 <= w) by (apply pow_R1_Rle; pose proof (bpow_gt_0 radix2 (-53)); lra).
    assert (HY : 0 <= Y).
    { unfold Y. clear. induction l; cbn; [lra|]. pose proof (Rabs_pos (B2R a)). unfold rsum in *. lra. }
    assert (Hu : 0 < u53) by apply bpow_gt_0.
    assert (Hx : Rabs (B2R a + B2R x) <= Rabs (B2R a) + Rabs (B2R x)) by apply Rabs_triang.
    assert (Hpos : 0 <= Rabs (B2R a + B2R x)) by apply Rabs_pos.
    assert (Hp : Rabs p <= (1 + u53) * (Rabs (B2R a) + Rabs (B2R x))).
    { replace p with ((p - (B2R a + B2R x)) + (B2R a + B2R x)) by ring.
      eapply Rle_trans; [apply Rabs_triang|]. nra. }
    replace (s - (B2R a + (B2R x + X))) with ((s - (p + X)) + (p - (B2R a + B2R x))) by ring.
    eapply Rle_trans; [apply Rabs_triang|].
    clearbody w Y X s p. clear F Fp.
    generalize dependent (Rabs (s - (p + X))). generalize dependent (Rabs (p - (B2R a + B2R x))).
    generalize dependent (Rabs p). generalize dependent (Rabs (B2R a + B2R x)). generalize dependent (Rabs (B2R a)). generalize dependent (Rabs (B2R x)).
    generalize dependent u53. generalize dependent w. generalize dependent Y. clear. 
    intros Y HY w Hw u Hu ax aa ap Hx Hpos P HP E He S HS.
    assert (S <= (w - 1) * ((1 + u) * (aa + ax) + Y)) by nra.
    assert (E <= u * (aa + ax)) by nra.
    assert (0 <= u * w * Y) by (apply Rmult_le_pos; [nra|auto]). nra.
Qed.
Lemma sum_error (l : list f64) : is_finite (fold_left nadd l n0) = true ->
  Rabs (B2R (fold_left nadd l n0) - rsum (map B2R l))
  <= ((1 + u53) ^ Nat.pred (length l) - 1) * rsum (map (fun x => Rabs (B2R x)) l).
Proof.
  destruct l as [|x l]; intros F.
  - cbn. rewrite Rminus_diag_eq, Rabs_R0 by reflexivity. lra.
  - cbn [fold_left length Nat.pred map] in *. pose proof (fold_error l (nadd n0 x) F) as H.
    assert (Fp : is_finite (nadd n0 x) = true) by (apply fold_finite in F; tauto).
    assert (E : B2R (nadd n0 x) = B2R x).
    { destruct (plus_error _ _ Fp) as [E _]. rewrite E. change (B2R n0) with 0. rewrite Rplus_0_l.
      apply round_generic; [apply valid_rnd_N|apply fmt]. }
    rewrite E in H. exact H.
Qed.
Close Scope R_scope.
Lemma sum_rows_at (M : list (list f64)) n i : shaped n M -> (i < n)%nat ->
  nth i (sum_rows n M) n0 = library_sum M i.
Proof.
  intros HM Hi. unfold sum_rows, library_sum.
  assert (G : forall acc, length acc = n -> nth i (fold_left vadd M acc) n0 = fold_left nadd (map (fun r => nth i r n0) M) (nth i acc n0)).
  { induction HM as [|r M Hr HM IH]; intros acc Ha; [reflexivity|]. cbn [fold_left map].
    rewrite IH by (unfold vadd; rewrite map2_length_eq; congruence). f_equal. unfold vadd.
    apply nth_map2; congruence. }
  rewrite G by apply repeat_length. f_equal. unfold vzeros. apply nth_repeat.
Qed.
Lemma f64_residue spl fuel c (S : list f64) T k o i : emd spl fuel c S T k = Ok o -> (i < length S)%nat ->
  nth i (residue o) n0 = nsub (nth i S n0) (library_sum (imfs o) i).
Proof.
  intros E Hi. pose proof (emd_shape _ _ _ _ _ _ _ E) as (_ & HM & _).
  assert (Er : residue o = vsub S (sum_rows (length S) (imfs o))).
  { apply emd_ok in E as (t & IMF & ext & _ & _ & _ & ->). reflexivity. }
  rewrite Er, <- (sum_rows_at (imfs o) (length S)) by auto. unfold vsub. apply nth_map2; auto.
  rewrite sum_rows_length; auto. apply Forall_forall. exact HM.
Qed.
Open Scope R_scope.
Lemma f64_reconstruct spl fuel c (S : list f64) T k o i : emd spl fuel c S T k = Ok o -> (i < length S)%nat ->
  finite (nth i (residue o) n0) ->
  finite (nth i S n0) /\ finite (library_sum (imfs o) i) /\
  Rabs (B2R (nth i S n0) - (B2R (library_sum (imfs o) i) + B2R (nth i (residue o) n0)))
    <= u53 * Rabs (B2R (nth i S n0) - B2R (library_sum (imfs o) i)).
Proof.
  intros E Hi F. pose proof (f64_residue _ _ _ _ _ _ _ _ E Hi) as Er. unfold finite in *. rewrite Er in *.
  destruct (minus_finite _ _ F) as [F1 F2]. repeat split; auto. pose proof (minus_error _ _ F) as H.
  set (x := B2R (nth i S n0)) in *. set (y := B2R (library_sum (imfs o) i)) in *. set (r := B2R (nsub (nth i S n0) (library_sum (imfs o) i))) in *.
  replace (x - (y + r)) with (- (r - (x - y))) by ring. rewrite Rabs_Ropp. exact H.
Qed.
Lemma f64_reconstruct_real spl fuel c (S : list f64) T k o i : emd spl fuel c S T k = Ok o -> (i < length S)%nat ->
  finite (nth i (residue o) n0) ->
  Rabs (B2R (nth i S n0) - (real_sum (imfs o) i + B2R (nth i (residue o) n0)))
    <= u53 * Rabs (B2R (nth i S n0) - B2R (library_sum (imfs o) i))
       + ((1 + u53) ^ Nat.pred (length (imfs o)) - 1) * real_size (imfs o) i.
Proof.
  intros E Hi F. destruct (f64_reconstruct _ _ _ _ _ _ _ _ E Hi F) as (_ & F2 & H).
  assert (H' : Rabs (B2R (library_sum (imfs o) i) - real_sum (imfs o) i)
                 <= ((1 + u53) ^ Nat.pred (length (imfs o)) - 1) * real_size (imfs o) i).
  { pose proof (sum_error _ F2) as H'. rewrite map_length in H'. rewrite !map_map in H'. exact H'. }
  set (x := B2R (nth i S n0)) in *. set (y := B2R (library_sum (imfs o) i)) in *. set (r := B2R (nth i (residue o) n0)) in *.
  set (z := real_sum (imfs o) i) in *.
  replace (x - (z + r)) with ((x - (y + r)) + (y - z)) by ring. eapply Rle_trans; [apply Rabs_triang|]. lra.
Qed.
Close Scope R_scope.
Lemma f64_crossings (T S : list f64) e : Forall finite S -> (forall x, In x S -> apart (value x) 0%Qc) ->
  find_extrema Simple T S = Ok e ->
  forall i, In i (indzer e) <->
    (0 <= i < zlen S - 1 /\ opposite (sample (map value S) i) (sample (map value S) (i + 1))) \/
    (exists a b, zero_run (map value S) a b /\ rounded_mid a b i).
Proof.
  intros HF HA. unfold find_extrema, find_extrema_simple.
  destruct (extrema_idx S) as [[M m]|]; [|discriminate]. cbn [bind].
  destruct (py_take T M); [|discriminate]. cbn [bind]. destruct (py_take S M); [|discriminate]. cbn [bind].
  destruct (py_take T m); [|discriminate]. cbn [bind]. destruct (py_take S m); [|discriminate]. cbn [bind].
  intros E i. assert (Ei : indzer e = zero_crossings S) by (injection E as <-; reflexivity). rewrite Ei.
  rewrite f64_zero_crossings by auto. destruct (zero_crossings_spec (map value S)) as [_ H]. rewrite H.
  unfold zlen. rewrite map_length. reflexivity.
Qed.
