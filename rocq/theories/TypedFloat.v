(** * TypedFloat: small integers in binary64. *)
From Verif Require Import Py Extrema Float64 Float64Proofs.
From Flocq Require Import Core BinarySingleNaN.
From Coq Require Import Reals Lra Lia.
Open Scope Z_scope.

Definition small (z : Z) : Prop := Z.abs z <= 2 ^ 53.

Lemma small_format z : small z -> generic_format radix2 (FLT_exp (-1074) 53) (IZR z).
Proof.
  intros Hz. unfold small in Hz. destruct (Z.eq_dec (Z.abs z) (2 ^ 53)) as [E|E].
  - assert (G : generic_format radix2 (FLT_exp (-1074) 53) (IZR (Z.abs z))).
    { rewrite E. change (2 ^ 53) with (Zpower radix2 53). rewrite IZR_Zpower by lia.
      apply generic_format_bpow. unfold FLT_exp. lia. }
    destruct (Z.abs_eq_or_opp z) as [A|A]; rewrite A in G; [exact G|].
    replace (IZR z) with (- IZR (- z))%R by (rewrite opp_IZR; lra). apply generic_format_opp. exact G.
  - apply generic_format_FLT. exists (Float radix2 z 0); cbn [Fnum Fexp].
    + unfold F2R. cbn. lra.
    + change (radix2 ^ 53) with (2 ^ 53). lia.
    + lia.
Qed.
Lemma small_lt z : small z -> (Rabs (IZR z) < bpow radix2 1024)%R.
Proof.
  intros Hz. rewrite <- abs_IZR. apply Rle_lt_trans with (IZR (2 ^ 53)); [apply IZR_le; exact Hz|].
  change (2 ^ 53) with (Zpower radix2 53). rewrite IZR_Zpower by lia. apply bpow_lt. lia.
Qed.
Lemma ofZ_spec z : small z ->
  B2R (f64_ofZ z) = IZR z /\ is_finite (f64_ofZ z) = true /\ Bsign (f64_ofZ z) = (z <? 0).
Proof.
  intros Hz. pose proof (binary_normalize_correct 53 1024 f64_prec f64_emax mode_NE z 0 false) as H. cbv zeta in H.
  fold (f64_ofZ z) in H.
  assert (E : F2R (Float radix2 z 0) = IZR z) by (unfold F2R; cbn; lra). rewrite E in H.
  change (SpecFloat.fexp 53 1024) with (FLT_exp (-1074) 53) in H.
  rewrite round_generic in H by (apply valid_rnd_N || apply small_format; auto).
  rewrite Rlt_bool_true in H by (apply small_lt; auto). destruct H as (H1 & H2 & H3). split; [exact H1|]. split; [exact H2|].
  rewrite H3. rewrite Rcompare_IZR. destruct (Z.compare_spec z 0); destruct (Z.ltb_spec z 0); auto; lia.
Qed.
Lemma ofZ_minus a b : small a -> small b -> small (a - b) ->
  nsub (f64_ofZ a) (f64_ofZ b) = f64_ofZ (a - b).
Proof.
  intros Ha Hb Hc. destruct (ofZ_spec a Ha) as (A1 & A2 & A3). destruct (ofZ_spec b Hb) as (B1 & B2 & B3).
  destruct (ofZ_spec (a - b) Hc) as (C1 & C2 & C3). cbn [nsub F64Num].
  pose proof (Bminus_correct 53 1024 f64_prec f64_emax mode_NE (f64_ofZ a) (f64_ofZ b) A2 B2) as H.
  rewrite A1, B1, <- minus_IZR in H. change (SpecFloat.fexp 53 1024) with (FLT_exp (-1074) 53) in H.
  rewrite round_generic in H by (apply valid_rnd_N || apply small_format; auto).
  rewrite Rlt_bool_true in H by (apply small_lt; auto). destruct H as (H1 & H2 & H3).
  apply B2R_Bsign_inj; auto; [congruence|]. rewrite H3, C3, A3, B3, Rcompare_IZR.
  destruct (Z.compare_spec (a - b) 0); destruct (Z.ltb_spec (a - b) 0); auto; try lia.
Qed.
Lemma ofZ_ltb a b : small a -> small b -> nltb (f64_ofZ a) (f64_ofZ b) = (a <? b).
Proof.
  intros Ha Hb. destruct (ofZ_spec a Ha) as (A1 & A2 & _). destruct (ofZ_spec b Hb) as (B1 & B2 & _).
  cbn [nltb F64Num]. rewrite Bltb_correct by auto. rewrite A1, B1.
  destruct (Z.ltb_spec a b); [apply Rlt_bool_true, IZR_lt; auto|apply Rlt_bool_false, IZR_le; auto].
Qed.
Lemma ofZ_self a : small a -> nleb (f64_ofZ a) (f64_ofZ a) = true.
Proof.
  intros Ha. destruct (ofZ_spec a Ha) as (A1 & A2 & _). cbn [nleb F64Num]. rewrite Bleb_correct by auto.
  apply Rle_bool_true, Rle_refl.
Qed.
Lemma ofZ_is0 a : small a -> is0 (f64_ofZ a) = (0 =? a).
Proof.
  intros Ha. destruct (ofZ_spec a Ha) as (A1 & A2 & _). unfold is0. cbn [neqb F64Num]. rewrite Beqb_correct by (auto; reflexivity).
  rewrite A1. change (B2R n0) with (IZR 0).
  destruct (Z.eqb_spec 0 a) as [<-|E]; [apply Req_bool_true; auto|apply Req_bool_false; intros H; apply eq_IZR in H; lia].
Qed.
