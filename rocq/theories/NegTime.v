(** * NegTime: the time axis 0, 1, 2, ... in double precision (lemmas). *)
From Flocq Require Import Core BinarySingleNaN.
From Coq Require Import Reals Lra.
From Verif Require Import PyFacts Emd Spec Float64 Float64Proofs EmdSym NegGen NegEmd NegSpec NegFloat Demo.
From Coq Require Import ZifyBool ZifyNat Lia.
From Coq Require Import List Lra.
Import ListNotations.
Open Scope Z_scope.

Lemma int_format z : Z.abs z < 2 ^ 53 -> generic_format radix2 (SpecFloat.fexp 53 1024) (IZR z).
Proof.
  intros Hz. change (SpecFloat.fexp 53 1024) with (FLT_exp (-1074) 53). apply generic_format_FLT.
  exists (Float radix2 z 0); cbn [Fnum Fexp]; [unfold F2R; cbn; ring|exact Hz|lia].
Qed.
Lemma int_round z : Z.abs z < 2 ^ 53 -> round radix2 (SpecFloat.fexp 53 1024) (round_mode mode_NE) (IZR z) = IZR z.
Proof. intros Hz. apply round_generic; [apply valid_rnd_N|apply int_format; auto]. Qed.
Lemma int_small z : Z.abs z < 2 ^ 53 -> (Rabs (IZR z) < bpow radix2 1024)%R.
Proof.
  intros Hz. apply Rlt_trans with (bpow radix2 53); [|apply bpow_lt; lia]. rewrite <- abs_IZR.
  change (bpow radix2 53) with (IZR (2 ^ 53)). apply IZR_lt. exact Hz.
Qed.
(** The double of a small integer is that integer. *)
Lemma ofZ_exact z : Z.abs z < 2 ^ 53 -> is_finite (f64_ofZ z) = true /\ B2R (f64_ofZ z) = IZR z /\ Bsign (f64_ofZ z) = (z <? 0).
Proof.
  intros Hz. pose proof (binary_normalize_correct 53 1024 f64_prec f64_emax mode_NE z 0 false) as G. cbv zeta in G.
  replace (F2R (Float radix2 z 0)) with (IZR z) in G by (unfold F2R; cbn; ring).
  rewrite int_round in G by auto. rewrite Rlt_bool_true in G by (apply int_small; auto). destruct G as (G1 & G2 & G3).
  split; [exact G2|]. split; [exact G1|]. etransitivity; [exact G3|].
  destruct (Z.ltb_spec z 0) as [D|D]; [rewrite Rcompare_Lt by (apply IZR_lt; auto); reflexivity|].
  destruct (Z.eq_dec z 0) as [->|D']; [rewrite Rcompare_Eq by reflexivity; reflexivity|]. rewrite Rcompare_Gt by (apply IZR_lt; lia). reflexivity.
Qed.
Lemma int_eq (x : f64) z : 0 < z -> Z.abs z < 2 ^ 53 -> is_finite x = true -> B2R x = IZR z -> x = f64_ofZ z.
Proof.
  intros H0 Hz Fx Vx. destruct (ofZ_exact z Hz) as (F & V & Sg). apply B2R_Bsign_inj; auto; [congruence|].
  rewrite Sg. replace (z <? 0) with false by lia. destruct (Bsign x) eqn:E; auto. pose proof (bsign_neg x Fx E) as X. rewrite Vx in X. apply le_IZR in X. lia.
Qed.
Lemma minus_int a b : Z.abs a < 2 ^ 53 -> Z.abs b < 2 ^ 53 -> Z.abs (a - b) < 2 ^ 53 ->
  is_finite (minus64 (f64_ofZ a) (f64_ofZ b)) = true /\ B2R (minus64 (f64_ofZ a) (f64_ofZ b)) = IZR (a - b).
Proof.
  intros Ha Hb Hab. destruct (ofZ_exact a Ha) as (Fa & Va & _). destruct (ofZ_exact b Hb) as (Fb & Vb & _).
  pose proof (Bminus_correct 53 1024 f64_prec f64_emax mode_NE _ _ Fa Fb) as G. rewrite Va, Vb, <- minus_IZR in G.
  rewrite int_round in G by auto. rewrite Rlt_bool_true in G by (apply int_small; auto). destruct G as (G1 & G2 & _). auto.
Qed.
Lemma trunc_int (x : f64) z : B2R x = IZR z -> Btrunc x = z.
Proof.
  intros Vx. apply eq_IZR. etransitivity; [apply Btrunc_correct; reflexivity|]. rewrite Vx. apply round_generic; [apply valid_rnd_ZR|].
  apply generic_format_FIX. exists (Float radix2 z 0); [unfold F2R; cbn; ring|reflexivity].
Qed.
Lemma diff_line lo n : 0 <= lo -> lo + Z.of_nat n < 2 ^ 53 -> ndiff (map nofZ (zseq lo (S n))) = repeat (nofZ 1 : f64) n.
Proof.
  revert lo. induction n as [|n IH]; intros lo H0 Hn; [reflexivity|].
  change (zseq lo (S (S n))) with (lo :: zseq (lo + 1) (S n)). cbn [map].
  specialize (IH (lo + 1) ltac:(lia) ltac:(lia)). unfold ndiff, adj in *. cbn [zseq map tl map2 repeat] in *. rewrite IH. f_equal.
  destruct (minus_int (lo + 1) lo ltac:(lia) ltac:(lia) ltac:(lia)) as [F V]. apply (int_eq _ 1); auto; try lia. etransitivity; [exact V|]. f_equal. lia.
Qed.
Lemma min_repeat (x : f64) n : not_a_number x = false -> nltb x x = false -> np_min (repeat x (S n)) = Ok x.
Proof.
  intros N1 N2. unfold np_min. cbn [repeat]. f_equal.
  assert (E : find not_a_number (x :: repeat x n) = None). { cbn [find]. rewrite N1. induction n; cbn [repeat find]; auto. rewrite N1. auto. }
  rewrite E. clear E. induction n; cbn [repeat fold_left]; auto. rewrite N2. exact IHn.
Qed.
Lemma is0_repeat n : existsb is0 (repeat (nofZ 1 : f64) n) = false.
Proof. induction n; cbn [repeat existsb]; auto. Qed.
Lemma zseq_nth lo n i z : nth_error (zseq lo n) i = Some z -> z = lo + Z.of_nat i /\ (i < n)%nat.
Proof.
  revert lo i. induction n as [|n IH]; intros lo i; cbn [zseq]; [destruct i; discriminate|].
  destruct i as [|i]; cbn [nth_error]; [intros [= <-]; lia|]. intros E. apply IH in E. lia.
Qed.
(** The samples are told apart by the indices 0, 1, 2, ... up to 2^53 samples. *)
Lemma line_apart (c : emd_config f64) S T t : extrema_detection c = Simple -> Z.of_nat (length S) <= 2 ^ 53 -> emd_time c S T = Ok t -> apart_times t.
Proof.
  intros Hd HS E. unfold emd_time in E. apply bind_ok in E as (u & _ & E). rewrite Hd in E.
  assert (E' : (let! t := timeline (length S) in normalize_time t) = Ok t) by (destruct T; exact E). clear E u.
  apply bind_ok in E' as (l & E1 & E2). destruct (length S) as [|n] eqn:En; [discriminate|]. cbn [timeline] in E1. apply ok_inv in E1. subst l.
  unfold normalize_time in E2. cbv zeta in E2. rewrite diff_line in E2 by lia. rewrite is0_repeat in E2.
  apply bind_ok in E2 as (t0 & E3 & E2). apply bind_ok in E2 as (m & E4 & E2). apply ok_inv in E2. subst t.
  change (py_get _ 0) with (Ok (f64_ofZ 0)) in E3. apply ok_inv in E3. subst t0.
  destruct n as [|n]; [discriminate|]. rewrite min_repeat in E4 by reflexivity. apply ok_inv in E4. subst m.
  assert (G : forall i x, nth_error (map (fun x => ndiv (nsub x (f64_ofZ 0)) (nofZ 1)) (map nofZ (zseq 0 (Datatypes.S (Datatypes.S n))))) i = Some x -> ntrunc x = Z.of_nat i).
  { intros i x Hx. rewrite map_map, nth_error_map in Hx. destruct (nth_error (zseq 0 (Datatypes.S (Datatypes.S n))) i) as [z|] eqn:Hz; [|discriminate]. apply zseq_nth in Hz as [-> Hi].
    cbn [option_map] in Hx. injection Hx as <-. set (z := 0 + Z.of_nat i). assert (Hzb : Z.abs z < 2 ^ 53) by lia.
    destruct (minus_int z 0 Hzb ltac:(lia) ltac:(lia)) as [F V]. cbn [ntrunc F64Num]. replace (Z.of_nat i) with z by lia. apply trunc_int.
    assert (V1 : B2R (f64_ofZ 1) = 1%R) by (apply (ofZ_exact 1); lia).
    pose proof (Bdiv_correct 53 1024 f64_prec f64_emax mode_NE (minus64 (f64_ofZ z) (f64_ofZ 0)) (f64_ofZ 1) ltac:(rewrite V1; lra)) as D.
    rewrite V, V1 in D. unfold Rdiv in D. rewrite Rinv_1, Rmult_1_r, int_round in D by lia. rewrite Rlt_bool_true in D by (apply int_small; lia).
    destruct D as (D & _). etransitivity; [exact D|]. f_equal. lia. }
  intros i j x y Hi Hj Exy. apply G in Hi, Hj. lia.
Qed.

(** The piecewise linear routine of the examples. *)
Lemma lin64_odd : odd64 (@lin_spl f64 _).
Proof.
  intros kind pts pts' t v HP. unfold lin_spl. revert v. induction t as [|u t IH]; cbn [mapM]; intros v E.
  - apply ok_inv in E. subst v. eexists. split; [reflexivity|]. constructor.
  - apply bind_ok in E as (w & E1 & E). apply bind_ok in E as (v' & E2 & E). apply ok_inv in E. subst v.
    destruct (IH _ E2) as (v2 & -> & R2).
    assert (G : exists w', lin_at pts' u = Ok w' /\ negative w w').
    { clear -HP E1. revert w E1. induction HP as [|p p' pts pts' [Hp1 Hp2] HP IH]; intros w; [discriminate|].
      destruct HP as [|q q' pts pts' [Hq1 Hq2] HP]; [destruct p; discriminate|].
      destruct p as [t0 v0], p' as [t0' v0'], q as [t1 v1], q' as [t1' v1']. cbn [fst snd] in *. subst t0' t1'. cbn [lin_at]. cbn [lin_at] in IH.
      destruct (nltb u t0); [discriminate|]. destruct (nleb u t1); [|apply IH].
      intros E. apply ok_inv in E. subst w. eexists. split; [reflexivity|].
      pose proof symmetric64 as L. repeat first [assumption | apply (s_add _ L) | apply (s_sub _ L) | apply (s_mull _ L) | apply (s_mulr _ L) | apply (s_div _ L)]. }
    destruct G as (w' & -> & Rw). cbn [bind]. eexists. split; [reflexivity|]. constructor; auto.
Qed.
Lemma negatives_opp S : negatives S (map Bopp S).
Proof. induction S; cbn; constructor; auto. left. reflexivity. Qed.
