(** * FloatAnyProofs: the sign lemmas of Float64Proofs.v for any IEEE format. *)
From Verif Require Import Py PyFacts QcFacts Extrema Emd Spec Float64 Float64Proofs Float32 ExtremaProofs ExtremaSpec.
From Flocq Require Import Core BinarySingleNaN Plus_error Relative.
From Coq Require Import Reals Lra QArith Qcanon Qreals Lia List.
Import ListNotations.
Open Scope Z_scope.

Section AnyFormat.
Variables prec emax : Z.
Context (Fp : Prec_gt_0 prec) (Fe : Prec_lt_emax prec emax).
Notation flt := (binary_float prec emax).
#[local] Instance FNum : Num flt := BNum prec emax Fp Fe.
(** Products of two numbers of size at least 2^K do not underflow. *)
Variable K : Z.
Variable tau : Qc.
Notation emin := (3 - emax - prec).
Hypothesis HK : emin <= K + K.
Hypothesis HK' : emin <= K.
Hypothesis Ht : Q2R tau = bpow radix2 K.
Notation fexpF := (FLT_exp emin prec).
Notation rnd := (round radix2 fexpF ZnearestE).
Notation B2R := (@BinarySingleNaN.B2R prec emax).
Notation apart := (apart_by tau).
#[local] Instance vF : Valid_exp fexpF := FLT_exp_valid emin prec.
#[local] Instance mF : Monotone_exp fexpF := FLT_exp_monotone emin prec.
#[local] Instance zF : Exp_not_FTZ fexpF.
Proof. pose proof Fp as P. unfold Prec_gt_0 in P. intros e. unfold FLT_exp. lia. Qed.

Lemma value_B2R (x : flt) : Q2R (bvalue x) = B2R x.
Proof.
  destruct x as [s|s| |s m e Hb]; try (cbn; unfold Q2R; cbn; lra).
  unfold bvalue, BinarySingleNaN.B2R, F2R. cbn [Fnum Fexp]. unfold cond_Zopp.
  assert (E : (if s then Z.neg m else Z.pos m) = (if s then - Z.pos m else Z.pos m)) by (destruct s; reflexivity).
  rewrite E. set (z := if s then _ else _). destruct (Z.leb_spec 0 e) as [He|He].
  - change (this (Q2Qc (inject_Z (z * 2 ^ e)))) with (Qred (inject_Z (z * 2 ^ e))).
    rewrite (Qeq_eqR _ _ (Qred_correct _)). unfold Q2R, inject_Z. cbn [Qnum Qden]. rewrite mult_IZR.
    change 2%Z with (radix_val radix2) at 1. rewrite (IZR_Zpower radix2) by auto. lra.
  - change (this (Q2Qc (z # Z.to_pos (2 ^ (- e))))) with (Qred (z # Z.to_pos (2 ^ (- e)))).
    rewrite (Qeq_eqR _ _ (Qred_correct _)). unfold Q2R. cbn [Qnum Qden].
    rewrite Z2Pos.id by (apply Z.pow_pos_nonneg; lia). 
    change 2%Z with (radix_val radix2) at 1. rewrite (IZR_Zpower radix2) by lia. rewrite bpow_opp, Rinv_inv. reflexivity.
Qed.
(** ** Signs.  [signs d r]: the double [d] compares with zero as the number [r] does. *)
Definition signs (d : flt) (r : R) : Prop :=
  nltb d n0 = Rlt_bool r 0 /\ nltb n0 d = Rlt_bool 0 r /\ is0 d = Req_bool r 0.

Lemma F_zero : (n0 : flt) = B754_zero false. Proof. reflexivity. Qed.
Lemma fin_signs (d : flt) : is_finite d = true -> signs d (B2R d).
Proof.
  intros F. unfold signs, is0. rewrite F_zero. cbn [nltb neqb FNum BNum].
  rewrite !Bltb_correct, Beqb_correct by auto. auto.
Qed.
Lemma signs_same (d : flt) r r' : signs d r -> ((r < 0 <-> r' < 0) /\ (0 < r <-> 0 < r'))%R -> signs d r'.
Proof.
  intros (H1 & H2 & H3) [Ha Hb]. unfold signs. rewrite H1, H2, H3.
  repeat split.
  - destruct (Rlt_bool_spec r 0); destruct (Rlt_bool_spec r' 0); auto; exfalso; tauto || lra.
  - destruct (Rlt_bool_spec 0 r); destruct (Rlt_bool_spec 0 r'); auto; exfalso; tauto || lra.
  - assert (Hz : r = 0%R <-> r' = 0%R).
    { split; intros Hz; subst.
      - destruct (Rtotal_order r' 0) as [L|[L|L]]; auto; [apply Ha in L|apply Hb in L]; lra.
      - destruct (Rtotal_order r 0) as [L|[L|L]]; auto; [apply Ha in L|apply Hb in L]; lra. }
    destruct (Req_bool_spec r 0), (Req_bool_spec r' 0); auto; exfalso; tauto.
Qed.
Lemma inf_signs (s : bool) r : (if s then r < 0 else 0 < r)%R -> signs (B754_infinity s) r.
Proof.
  intros H. unfold signs, is0. destruct s; cbn; repeat split; symmetry.
  - apply Rlt_bool_true; auto.
  - apply Rlt_bool_false; lra.
  - apply Req_bool_false; lra.
  - apply Rlt_bool_false; lra.
  - apply Rlt_bool_true; auto.
  - apply Req_bool_false; lra.
Qed.
Lemma signs_inf (s : bool) r : signs (B754_infinity s) r -> (if s then r < 0 else 0 < r)%R.
Proof.
  intros (H1 & H2 & _). destruct s; cbn in *.
  - destruct (Rlt_bool_spec r 0); auto; discriminate.
  - destruct (Rlt_bool_spec 0 r); auto; discriminate.
Qed.
Lemma signs_iff (d : flt) r : signs d r -> is_finite d = true ->
  ((B2R d < 0 <-> r < 0) /\ (0 < B2R d <-> 0 < r))%R.
Proof.
  intros (H1 & H2 & _) F. destruct (fin_signs d F) as (G1 & G2 & _). rewrite G1 in H1. rewrite G2 in H2.
  destruct (Rlt_bool_spec (B2R d) 0), (Rlt_bool_spec r 0); try discriminate;
  destruct (Rlt_bool_spec 0 (B2R d)), (Rlt_bool_spec 0 r); try discriminate; lra.
Qed.

Lemma bsign_pos (x : flt) : is_finite x = true -> Bsign x = false -> (0 <= B2R x)%R.
Proof.
  destruct x as [s|s| |s m e Hb]; try discriminate; intros _ Hs; cbn in Hs; subst.
  - cbn. lra.
  - apply F2R_ge_0. cbn. lia.
Qed.
Lemma bsign_neg (x : flt) : is_finite x = true -> Bsign x = true -> (B2R x <= 0)%R.
Proof.
  destruct x as [s|s| |s m e Hb]; try discriminate; intros _ Hs; cbn in Hs; subst.
  - cbn. lra.
  - apply F2R_le_0. cbn. lia.
Qed.
Lemma overflow_pos r : (bpow radix2 emax <= Rabs (rnd r))%R -> r <> 0%R.
Proof.
  intros H ->. rewrite round_0, Rabs_R0 in H by apply valid_rnd_N. pose proof (bpow_gt_0 radix2 emax). lra.
Qed.

Lemma fmt (x : flt) : generic_format radix2 fexpF (B2R x).
Proof. apply generic_format_B2R. Qed.

(** Subtraction never gets the sign wrong. *)
Lemma minus_signs (x y : flt) : is_finite x = true -> is_finite y = true ->
  signs (nsub x y) (B2R x - B2R y).
Proof.
  intros Fx Fy. pose proof (Bminus_correct prec emax Fp Fe mode_NE x y Fx Fy) as H.
  change (nsub x y) with (Bminus mode_NE x y).
  change (SpecFloat.fexp prec emax) with fexpF in H. rewrite (mode_rnd _ eq_refl) in H.
  destruct (Rlt_bool_spec (Rabs (rnd (B2R x - B2R y))) (bpow radix2 emax)) as [Hlt|Hge].
  - destruct H as (E & F & _). apply (signs_same _ (B2R (Bminus mode_NE x y))); [apply fin_signs; auto|]. rewrite E.
    assert (Hn : (B2R x - B2R y <> 0)%R -> (rnd (B2R x - B2R y) <> 0)%R).
    { intros Hn. apply (round_plus_neq_0 radix2 fexpF ZnearestE (B2R x) (- B2R y)); [apply fmt|apply generic_format_opp, fmt|exact Hn]. }
    assert (Hp : (0 <= B2R x - B2R y)%R -> (0 <= rnd (B2R x - B2R y))%R).
    { intros Hp. apply round_ge_generic; [apply vF|apply valid_rnd_N|apply generic_format_0|auto]. }
    assert (Hm : (B2R x - B2R y <= 0)%R -> (rnd (B2R x - B2R y) <= 0)%R).
    { intros Hm. apply round_le_generic; [apply vF|apply valid_rnd_N|apply generic_format_0|auto]. }
    destruct (Rtotal_order (B2R x - B2R y) 0) as [L|[L|L]].
    + specialize (Hm (Rlt_le _ _ L)). specialize (Hn (Rlt_not_eq _ _ L)). split; split; lra.
    + rewrite L, round_0 by apply valid_rnd_N. split; split; lra.
    + specialize (Hp (Rlt_le _ _ L)). assert (B2R x - B2R y <> 0)%R by lra. specialize (Hn H). split; split; lra.
  - destruct H as [H Hs]. apply overflow_pos in Hge.
    assert (E : Bminus mode_NE x y = B754_infinity (Bsign x)).
    { apply B2SF_inj. rewrite H. reflexivity. }
    rewrite E. apply inf_signs. destruct (Bsign x) eqn:Sx.
    + pose proof (bsign_neg x Fx Sx). destruct (Bsign y) eqn:Sy; [discriminate|]. pose proof (bsign_pos y Fy Sy). lra.
    + pose proof (bsign_pos x Fx Sx). destruct (Bsign y) eqn:Sy; [|discriminate]. pose proof (bsign_neg y Fy Sy). lra.
Qed.

(** Not too small: zero, infinite, or at least 2^K in size. *)
Definition sizable (d : flt) : Prop :=
  is_finite d = false \/ B2R d = 0%R \/ (bpow radix2 K <= Rabs (B2R d))%R.

Lemma sign_cases (d : flt) r : signs d r ->
  (exists s, d = B754_infinity s) \/ is_finite d = true.
Proof.
  destruct d as [s|s| |s m e Hb]; eauto. intros (H1 & H2 & H3). exfalso. cbn in *.
  destruct (Rlt_bool_spec r 0), (Rlt_bool_spec 0 r), (Req_bool_spec r 0); try discriminate. lra.
Qed.
Lemma inf_times s (y : flt) r u : (if s : bool then r < 0 else 0 < r)%R -> signs y u ->
  nltb (nmul (B754_infinity s) y) n0 = Rlt_bool (r * u) 0 /\ nltb (nmul y (B754_infinity s)) n0 = Rlt_bool (r * u) 0.
Proof.
  intros Hr Hy. pose proof (sign_cases _ _ Hy) as C.
  destruct y as [t|t| |t m e Hb]; try (destruct C as [[? C]|C]; discriminate).
  - apply signs_iff in Hy; [|reflexivity]. cbn in Hy. assert (u = 0%R) by (destruct (Rtotal_order u 0) as [|[|]]; lra). subst.
    rewrite Rmult_0_r, Rlt_bool_false by lra. split; reflexivity.
  - apply signs_inf in Hy. cbn. destruct s, t; cbn; split; symmetry;
      solve [apply Rlt_bool_true; nra|apply Rlt_bool_false; nra].
  - pose proof (signs_iff _ _ Hy eq_refl) as [G1 G2].
    assert (Hu : (if t then u < 0 else 0 < u)%R).
    { destruct t; [apply G1; apply F2R_lt_0|apply G2; apply F2R_gt_0]; cbn; lia. }
    cbn. destruct s, t; cbn; split; symmetry; solve [apply Rlt_bool_true; nra|apply Rlt_bool_false; nra].
Qed.
Lemma finite_times (x y : flt) : is_finite x = true -> is_finite y = true -> sizable x -> sizable y ->
  nltb (nmul x y) n0 = Rlt_bool (B2R x * B2R y) 0.
Proof.
  intros Fx Fy Zx Zy. pose proof (Bmult_correct prec emax Fp Fe mode_NE x y) as H.
  change (nmul x y) with (Bmult mode_NE x y).
  change (SpecFloat.fexp prec emax) with fexpF in H. rewrite (mode_rnd _ eq_refl) in H.
  destruct (Rlt_bool_spec (Rabs (rnd (B2R x * B2R y))) (bpow radix2 emax)) as [Hlt|Hge].
  - destruct H as (E & F & _). rewrite Fx, Fy in F. rewrite F_zero. cbn [nltb FNum BNum].
    rewrite Bltb_correct, E by auto. change (B2R (B754_zero false)) with 0%R.
    destruct (Rlt_bool_spec (B2R x * B2R y) 0) as [L|L].
    + apply Rlt_bool_true.
      destruct Zx as [Zx|[Zx|Zx]]; [congruence|rewrite Zx in L; lra|].
      destruct Zy as [Zy|[Zy|Zy]]; [congruence|rewrite Zy in L; lra|].
      assert (Hb : (bpow radix2 emin <= Rabs (B2R x * B2R y))%R).
      { rewrite Rabs_mult. eapply Rle_trans; [apply bpow_le; exact HK|]. rewrite bpow_plus.
        apply Rmult_le_compat; auto; apply bpow_ge_0. }
      rewrite Rabs_left in Hb by auto.
      assert (Hr : (rnd (B2R x * B2R y) <= - bpow radix2 emin)%R).
      { apply round_le_generic; [apply vF|apply valid_rnd_N|apply generic_format_opp, generic_format_bpow; unfold FLT_exp; unfold Prec_gt_0 in Fp; lia|lra]. }
      pose proof (bpow_gt_0 radix2 emin). lra.
    + apply Rlt_bool_false. apply round_ge_generic; [apply vF|apply valid_rnd_N|apply generic_format_0|auto].
  - apply overflow_pos in Hge.
    assert (E : Bmult mode_NE x y = B754_infinity (xorb (Bsign x) (Bsign y))).
    { apply B2SF_inj. rewrite H. reflexivity. }
    rewrite E. clear E H.
    assert (Hx : B2R x <> 0%R) by (intros Z; rewrite Z, Rmult_0_l in Hge; auto).
    assert (Hy : B2R y <> 0%R) by (intros Z; rewrite Z, Rmult_0_r in Hge; auto).
    destruct (Bsign x) eqn:Sx, (Bsign y) eqn:Sy;
      repeat match goal with
      | F : is_finite ?z = true, S : Bsign ?z = true |- _ => pose proof (bsign_neg z F S); clear S
      | F : is_finite ?z = true, S : Bsign ?z = false |- _ => pose proof (bsign_pos z F S); clear S
      end; cbn; symmetry.
    + apply Rlt_bool_false; nra.
    + apply Rlt_bool_true; nra.
    + apply Rlt_bool_true; nra.
    + apply Rlt_bool_false; nra.
Qed.
Lemma mult_neg (x y : flt) r s : signs x r -> signs y s -> sizable x -> sizable y ->
  nltb (nmul x y) n0 = Rlt_bool (r * s) 0.
Proof.
  intros Hx Hy Zx Zy.
  destruct (sign_cases _ _ Hx) as [[sx ->]|Fx]; [apply inf_times; auto; apply signs_inf; auto|].
  destruct (sign_cases _ _ Hy) as [[sy ->]|Fy].
  { rewrite Rmult_comm. apply inf_times; auto. apply signs_inf; auto. }
  rewrite finite_times by auto.
  destruct (signs_iff _ _ Hx Fx) as [A1 A2]. destruct (signs_iff _ _ Hy Fy) as [B1 B2].
  assert (G : forall a b, (a * b < 0 <-> (a < 0 /\ 0 < b) \/ (0 < a /\ b < 0))%R).
  { intros a b. split; [|intros [[]|[]]; nra]. intros Hn.
    destruct (Rtotal_order a 0) as [La|[La|La]]; destruct (Rtotal_order b 0) as [Lb|[Lb|Lb]]; subst; try nra; tauto. }
  destruct (Rlt_bool_spec (r * s) 0) as [L|L].
  - apply Rlt_bool_true. apply G. apply G in L. tauto.
  - apply Rlt_bool_false. apply Rnot_lt_le. intros Hn. apply Rle_not_lt in L. apply L. apply G. apply G in Hn. tauto.
Qed.

(** A difference that is not exactly zero and not tiny stays sizable. *)
Lemma minus_sizable (x y : flt) : is_finite x = true -> is_finite y = true ->
  (B2R x - B2R y = 0 \/ bpow radix2 K <= Rabs (B2R x - B2R y))%R -> sizable (nsub x y).
Proof.
  intros Fx Fy Hd. pose proof (Bminus_correct prec emax Fp Fe mode_NE x y Fx Fy) as H.
  change (nsub x y) with (Bminus mode_NE x y). unfold sizable.
  change (SpecFloat.fexp prec emax) with fexpF in H. rewrite (mode_rnd _ eq_refl) in H.
  destruct (Rlt_bool_spec (Rabs (rnd (B2R x - B2R y))) (bpow radix2 emax)) as [Hlt|Hge].
  - destruct H as (E & F & _). right. rewrite E. destruct Hd as [->|Hd]; [left; apply round_0, valid_rnd_N|right].
    apply abs_round_ge_generic; auto; [apply vF|apply valid_rnd_N|apply generic_format_bpow; unfold FLT_exp; unfold Prec_gt_0 in Fp; lia].
  - left. destruct H as [H _]. assert (E : Bminus mode_NE x y = B754_infinity (Bsign x)).
    { apply B2SF_inj. rewrite H. reflexivity. }
    rewrite E. reflexivity.
Qed.

(** ** Extrema: the same indices as in exact arithmetic *)
Definition like (a : flt) (b : Qc) : Prop := signs a (Q2R b) /\ sizable a.
Lemma like_bools a b : like a b ->
  nltb a n0 = nltb b n0 /\ nltb n0 a = nltb n0 b /\ is0 a = is0 b.
Proof.
  intros [(H1 & H2 & H3) _]. unfold is0 in *. rewrite H1, H2, H3. cbn [nltb neqb QcNum].
  rewrite !Qc_ltb_R, Qc_eqb_R. change (Q2R (n0 : Qc)) with (Q2R (Q2Qc 0)). rewrite Q2R_Qc0. auto.
Qed.
Lemma like_mult a b c d : like a b -> like c d -> nltb (nmul a c) n0 = nltb (nmul b d) n0.
Proof.
  intros [H1 H2] [H3 H4]. rewrite (mult_neg a c (Q2R b) (Q2R d)) by auto. cbn [nltb nmul QcNum].
  rewrite Qc_ltb_R, Float64Proofs.Q2R_mult. change (Q2R (n0 : Qc)) with (Q2R (Q2Qc 0)). rewrite Q2R_Qc0. reflexivity.
Qed.
Lemma idx_like (S : list flt) (S' : list Qc) : Forall2 like (ndiff S) (ndiff S') -> zlen S = zlen S' ->
  extrema_idx S = extrema_idx S'.
Proof.
  intros HF EL. unfold extrema_idx. cbv zeta.
  assert (E1 : strict_min_idx (ndiff S) = strict_min_idx (ndiff S')).
  { unfold strict_min_idx. f_equal. f_equal. apply (adj_like like); auto. intros a b c d H1 H2.
    rewrite (like_mult a b c d) by auto. destruct (like_bools a b H1) as (-> & _). reflexivity. }
  assert (E2 : strict_max_idx (ndiff S) = strict_max_idx (ndiff S')).
  { unfold strict_max_idx. f_equal. f_equal. apply (adj_like like); auto. intros a b c d H1 H2.
    rewrite (like_mult a b c d) by auto. destruct (like_bools a b H1) as (_ & -> & _). reflexivity. }
  assert (E3 : map is0 (ndiff S) = map is0 (ndiff S')).
  { apply (map_like like); auto. intros a b H1. apply like_bools; auto. }
  rewrite E1, E2, E3, EL. destruct (existsb _ _); [|reflexivity].
  destruct (drop_last_run _ _) as [|r rs]; [reflexivity|]. set (runs := r :: rs).
  pose proof (take_like like _ _ (map (fun r => fst r - 1) runs) HF) as G1.
  destruct (py_take (ndiff S) _) as [b|], (py_take (ndiff S') _) as [b'|]; try contradiction; cbn [bind]; [|congruence].
  pose proof (take_like like _ _ (map snd runs) HF) as G2.
  destruct (py_take (ndiff S) _) as [a|], (py_take (ndiff S') _) as [a'|]; try contradiction; cbn [bind]; [|congruence].
  assert (M1 : map2 (fun b a : flt => nltb n0 b && nltb a n0) b a = map2 (fun b a : Qc => nltb n0 b && nltb a n0) b' a').
  { apply (map2_like like); auto. intros x y u v H1 H2. destruct (like_bools _ _ H1) as (_ & -> & _).
    destruct (like_bools _ _ H2) as (-> & _). reflexivity. }
  assert (M2 : map2 (fun b a : flt => nltb b n0 && nltb n0 a) b a = map2 (fun b a : Qc => nltb b n0 && nltb n0 a) b' a').
  { apply (map2_like like); auto. intros x y u v H1 H2. destruct (like_bools _ _ H1) as (-> & _).
    destruct (like_bools _ _ H2) as (_ & -> & _). reflexivity. }
  rewrite M1, M2. reflexivity.
Qed.

Lemma apart_R (x y : flt) : apart (bvalue x) (bvalue y) ->
  (B2R y - B2R x = 0 \/ bpow radix2 K <= Rabs (B2R y - B2R x))%R.
Proof.
  rewrite <- !value_B2R. intros [E|[E|E]]; [left; rewrite E; lra|right|right];
  apply Qle_Rle in E; rewrite Ht, Float64Proofs.Q2R_minus in E; pose proof (bpow_gt_0 radix2 K).
  - rewrite Rabs_left by lra. lra.
  - rewrite Rabs_right by lra. lra.
Qed.
Lemma ndiff_like (S : list flt) : Forall (fun x => is_finite x = true) S ->
  (forall i, 0 <= i < zlen S - 1 -> apart (sample (map bvalue S) i) (sample (map bvalue S) (i + 1))) ->
  Forall2 like (ndiff S) (ndiff (map bvalue S)).
Proof.
  intros HF. induction HF as [|x S Hx HF IH]; intros HA; [constructor|].
  destruct HF as [|y S Hy HF]; [constructor|]. unfold ndiff, adj in *. cbn [map tl map2] in *. constructor.
  - assert (A : apart (bvalue x) (bvalue y)) by (apply (HA 0); unfold zlen; cbn [length]; lia).
    split; [|apply minus_sizable; auto; apply apart_R; auto].
    cbn [nsub QcNum]. rewrite Float64Proofs.Q2R_minus, !value_B2R. apply minus_signs; auto.
  - apply IH. intros i Hi. unfold zlen in *. cbn [length] in *. specialize (HA (i + 1)). unfold sample in *.
    replace (Z.to_nat (i + 1 + 1)) with (Datatypes.S (Z.to_nat (i + 1))) in HA by lia.
    replace (Z.to_nat (i + 1)) with (Datatypes.S (Z.to_nat i)) in * by lia. apply HA. lia.
Qed.
Lemma F_extrema_idx (S : list flt) : Forall (fun x => is_finite x = true) S ->
  (forall i, 0 <= i < zlen S - 1 -> apart (sample (map bvalue S) i) (sample (map bvalue S) (i + 1))) ->
  extrema_idx S = extrema_idx (map bvalue S).
Proof. intros. apply idx_like; [apply ndiff_like; auto|unfold zlen; rewrite map_length; auto]. Qed.

Lemma F_zero_crossings (S : list flt) : Forall (fun x => is_finite x = true) S ->
  (forall x, In x S -> apart (bvalue x) 0%Qc) -> zero_crossings S = zero_crossings (map bvalue S).
Proof.
  intros HF HA. assert (HL : Forall2 like S (map bvalue S)).
  { induction HF as [|x S Hx HF IH]; constructor; [|apply IH; intros; apply HA; right; auto].
    split; [rewrite value_B2R; apply fin_signs; auto|]. right. specialize (HA x (or_introl eq_refl)).
    rewrite <- value_B2R. destruct HA as [E|[E|E]]; [left; rewrite E; apply Q2R_Qc0|right|right];
    apply Qle_Rle in E; rewrite Ht, Float64Proofs.Q2R_minus, Q2R_Qc0 in E; pose proof (bpow_gt_0 radix2 K).
    - rewrite Rabs_right by lra. lra.
    - rewrite Rabs_left by lra. lra. }
  unfold zero_crossings. cbv zeta.
  assert (E1 : adj (fun a b : flt => nltb (nmul a b) n0) S = adj (fun a b : Qc => nltb (nmul a b) n0) (map bvalue S)).
  { apply (adj_like like); auto. intros; apply like_mult; auto. }
  assert (E2 : map is0 S = map is0 (map bvalue S)) by (apply (map_like like); auto; intros; apply like_bools; auto).
  rewrite E1, E2. reflexivity.
Qed.

Lemma take_at (l : list flt) idx : (forall i, In i idx -> 0 <= i < zlen l) -> py_take l idx = Ok (map (entry l) idx).
Proof.
  intros Hi. unfold py_take. induction idx as [|i idx IH]; [reflexivity|]. cbn [mapM map].
  rewrite (py_get_nonneg l i n0) by (apply Hi; left; auto). cbn [bind]. rewrite IH by (intros; apply Hi; right; auto). reflexivity.
Qed.
Lemma F_extrema (T S : list flt) : length T = length S -> Forall (fun x => is_finite x = true) S ->
  (forall i, 0 <= i < zlen S - 1 -> apart (sample (map bvalue S) i) (sample (map bvalue S) (i + 1))) ->
  exists e M m, find_extrema Simple T S = Ok e /\
    max_pos e = map (entry T) M /\ max_val e = map (entry S) M /\
    min_pos e = map (entry T) m /\ min_val e = map (entry S) m /\
    zincreasing M /\ zincreasing m /\
    (forall i, In i M <-> reported_max (map bvalue S) i) /\ (forall i, In i m <-> reported_min (map bvalue S) i) /\
    indzer e = zero_crossings S.
Proof.
  intros HL HF HA. destruct (extrema_idx_spec (map bvalue S)) as (M & m & E & I1 & I2 & HM & Hm).
  rewrite <- F_extrema_idx in E by auto.
  assert (RM : forall i, In i M -> 0 <= i < zlen S) by (intros i Hi; apply HM, rep_range in Hi; unfold zlen in *; rewrite map_length in Hi; lia).
  assert (Rm : forall i, In i m -> 0 <= i < zlen S) by (intros i Hi; apply Hm, rep_range in Hi; unfold zlen in *; rewrite map_length in Hi; lia).
  assert (HT : zlen T = zlen S) by (unfold zlen; congruence).
  unfold find_extrema, find_extrema_simple. rewrite E. cbn [bind].
  rewrite !take_at by (rewrite ?HT; auto). cbn [bind].
  eexists. exists M, m. split; [reflexivity|]. cbn [max_pos max_val min_pos min_val indzer].
  repeat (split; [reflexivity || assumption|]). split; [intros i; rewrite HM; apply rep_max_iff|].
  split; [intros i; rewrite Hm; apply rep_min_iff|reflexivity].
Qed.


End AnyFormat.

Lemma pow_R n : 0 <= n -> Q2R (Q2Qc (1 # Z.to_pos (2 ^ n))) = bpow radix2 (- n).
Proof.
  intros Hn. change (this (Q2Qc (1 # Z.to_pos (2 ^ n)))) with (Qred (1 # Z.to_pos (2 ^ n))).
  rewrite (Qeq_eqR _ _ (Qred_correct _)). unfold Q2R. cbn [Qnum Qden]. rewrite Rmult_1_l.
  rewrite Z2Pos.id by (apply Z.pow_pos_nonneg; lia). rewrite bpow_opp, <- IZR_Zpower by lia. reflexivity.
Qed.
