(** * KindsMono: pchip and straight lines never leave the values of the two knots around (exact arithmetic). *)
From Verif Require Import PyFacts QcFacts Emd Spec Demo EmdProofs EmdSimple ReverseLin RevSpec SymSpec.
From Verif Require Import Runs EmdSym Kinds KindsSpec KindsProofs KindsRules.
From Coq Require Import ZifyBool ZifyNat QArith Qcanon Lia.
Open Scope Z_scope.

Lemma tri (x : Qc) : ((1 + 1 + 1) * x = x + x + x)%Qc.
Proof. ring. Qed.
Lemma dbl (x : Qc) : ((1 + 1) * x = x + x)%Qc.
Proof. ring. Qed.
Lemma mul_nonneg (x y : Qc) : (0 <= x)%Qc -> (0 <= y)%Qc -> (0 <= x * y)%Qc.
Proof. intros Hx Hy. rewrite <- (Qcmult_0_l y). apply Qcmult_le_compat_r; auto. Qed.
Ltac ql := rewrite ?tri, ?dbl, ?Qcmult_0_l, ?Qcmult_1_l in *; qclra.

(** A slope [d] with the sign of the chord [m] and at most three times as steep. *)
Definition tame (m d : Qc) : Prop :=
  ((0 <= m /\ 0 <= d /\ d <= (1 + 1 + 1) * m) \/ (m <= 0 /\ (1 + 1 + 1) * m <= d /\ d <= 0))%Qc.
Lemma tame_opp m d : tame (- m)%Qc (- d)%Qc -> tame m d.
Proof. intros [(H1 & H2 & H3)|(H1 & H2 & H3)]; [right|left]; repeat split; ql. Qed.
Lemma tame_opp1 m d : tame (- (1) * m)%Qc (- (1) * d)%Qc -> tame m d.
Proof. rewrite (opp1 m), (opp1 d). apply tame_opp. Qed.
Lemma tame_zero m : tame m 0%Qc.
Proof. destruct (Qclt_le_dec 0 m); [left|right]; repeat split; ql. Qed.

Lemma nsign_cases x : (nsign x = 1 /\ (0 < x)%Qc) \/ (nsign x = -1 /\ (x < 0)%Qc) \/ (nsign x = 0 /\ x = 0%Qc).
Proof.
  unfold nsign. num_qc. destruct (Qc_ltb (Q2Qc 0) x) eqn:E1; qc_bool; [left; auto|].
  destruct (Qc_ltb x (Q2Qc 0)) eqn:E2; qc_bool; [right; left; auto|]. right. right. split; auto. apply Qcle_antisym; auto.
Qed.

Lemma edge_up h0 h1 m0 m1 : (0 < h0)%Qc -> (0 < h1)%Qc -> (0 <= m0)%Qc -> tame m0 (pchip_edge h0 h1 m0 m1).
Proof.
  intros P0 P1 Hm. unfold pchip_edge. num_qc. rewrite two_qc, three_qc.
  set (d := (((((1 + 1) * h0 + h1) * m0 - h0 * m1) / (h0 + h1)))%Qc).
  assert (ED : (d * (h0 + h1) = ((1 + 1) * h0 + h1) * m0 - h0 * m1)%Qc) by (unfold d; field; intros C; ql). clearbody d.
  destruct (Z.eqb_spec (nsign d) (nsign m0)) as [Es|Es]; cbn [negb]; [|apply tame_zero].
  assert (D0 : (0 <= d)%Qc /\ (m0 = 0%Qc -> d = 0%Qc)).
  { destruct (nsign_cases d) as [[S1 T1]|[[S1 T1]|[S1 T1]]], (nsign_cases m0) as [[S2 T2]|[[S2 T2]|[S2 T2]]]; try lia; split; try ql;
      try (intros ->; ql). }
  destruct D0 as [D0 D1].
  destruct (Z.eqb_spec (nsign m0) (nsign m1)) as [E1|E1]; cbn [negb andb].
  - left. split; auto. split; auto. assert (M1 : (0 <= m1)%Qc).
    { destruct (nsign_cases m1) as [[S1 T1]|[[S1 T1]|[S1 T1]]], (nsign_cases m0) as [[S2 T2]|[[S2 T2]|[S2 T2]]]; try lia; ql. }
    destruct (Qclt_le_dec ((1 + 1 + 1) * m0) d) as [C|C]; auto. exfalso.
    assert (G : (0 <= h0 * m1)%Qc) by (apply mul_nonneg; ql). assert (G2 : (0 < (d - (1 + 1 + 1) * m0) * (h0 + h1))%Qc) by (apply Qc_mul_pos; ql).
    assert (G3 : (0 <= h0 * m0)%Qc) by (apply mul_nonneg; ql). assert (G4 : (0 <= h1 * m0)%Qc) by (apply mul_nonneg; ql).
    replace ((d - (1 + 1 + 1) * m0) * (h0 + h1))%Qc with (d * (h0 + h1) - (h0 * m0 + h0 * m0 + h0 * m0) - (h1 * m0 + h1 * m0 + h1 * m0))%Qc in G2 by ring.
    rewrite ED in G2. replace (((1 + 1) * h0 + h1) * m0 - h0 * m1)%Qc with (h0 * m0 + h0 * m0 + h1 * m0 - h0 * m1)%Qc in G2 by ring.
    clear ED. ql.
  - destruct (Qc_ltb ((1 + 1 + 1) * Qc_abs m0) (Qc_abs d)) eqn:E2.
    + left. split; auto. split; ql.
    + left. split; auto. split; auto. unfold Qc_abs in E2.
      destruct (Qc_ltb m0 0) eqn:Q1; [qc_bool; ql|]. destruct (Qc_ltb d 0) eqn:Q2; [qc_bool; ql|]. qc_bool. exact E2.
Qed.
Lemma edge_tame h0 h1 m0 m1 : (0 < h0)%Qc -> (0 < h1)%Qc -> tame m0 (pchip_edge h0 h1 m0 m1).
Proof.
  intros P0 P1. destruct (Qclt_le_dec m0 0) as [Hm|Hm]; [|apply edge_up; auto].
  apply tame_opp1. rewrite <- pchip_edge_scale. apply edge_up; auto. rewrite opp1. ql.
Qed.

Lemma harmonic h1 h2 m1 m2 : (0 < h1)%Qc -> (0 < h2)%Qc -> (0 < m1)%Qc -> (0 < m2)%Qc ->
  let w1 := ((1 + 1) * h2 + h1)%Qc in let w2 := (h2 + (1 + 1) * h1)%Qc in
  let d := (1 / ((w1 / m1 + w2 / m2) / (w1 + w2)))%Qc in
  (0 <= d /\ d <= (1 + 1 + 1) * m1 /\ d <= (1 + 1 + 1) * m2)%Qc.
Proof.
  intros P1 P2 M1 M2 w1 w2 d.
  assert (W1 : (0 < w1)%Qc) by (unfold w1; ql). assert (W2 : (0 < w2)%Qc) by (unfold w2; ql).
  assert (T1 : (w2 <= (1 + 1) * w1)%Qc) by (unfold w1, w2; ql). assert (T2 : (w1 <= (1 + 1) * w2)%Qc) by (unfold w1, w2; ql).
  clearbody w1 w2.
  assert (A1 : (0 < w1 * m2)%Qc) by (apply Qc_mul_pos; auto). assert (A2 : (0 < w2 * m1)%Qc) by (apply Qc_mul_pos; auto).
  assert (ED : (d * (w1 * m2 + w2 * m1) = (w1 + w2) * (m1 * m2))%Qc).
  { unfold d. field. repeat split; intros C; ql. }
  clearbody d. assert (M : (0 < m1 * m2)%Qc) by (apply Qc_mul_pos; auto). set (D := (w1 * m2 + w2 * m1)%Qc) in *.
  assert (PD : (0 < D)%Qc) by (unfold D; ql).
  assert (LE : forall x y : Qc, (x * D <= y * D)%Qc -> (x <= y)%Qc) by (intros x y; apply Qcmult_lt_0_le_reg_r; auto).
  assert (B1 : (0 <= ((1 + 1) * w1 - w2) * (m1 * m2))%Qc) by (apply mul_nonneg; ql).
  assert (B2 : (0 <= ((1 + 1) * w2 - w1) * (m1 * m2))%Qc) by (apply mul_nonneg; ql).
  assert (C1 : (0 < w2 * m1 * m1)%Qc) by (apply Qc_mul_pos; auto). assert (C2 : (0 < w1 * m2 * m2)%Qc) by (apply Qc_mul_pos; auto).
  assert (C0 : (0 < (w1 + w2) * (m1 * m2))%Qc) by (apply Qc_mul_pos; [ql|auto]).
  split; [|split].
  - apply LE. rewrite ED. replace (0 * D)%Qc with 0%Qc by ring. ql.
  - apply LE. rewrite ED. unfold D.
    replace ((1 + 1 + 1) * m1 * (w1 * m2 + w2 * m1))%Qc
      with ((w1 + w2) * (m1 * m2) + ((1 + 1) * w1 - w2) * (m1 * m2) + (1 + 1 + 1) * (w2 * m1 * m1))%Qc by ring. ql.
  - apply LE. rewrite ED. unfold D.
    replace ((1 + 1 + 1) * m2 * (w1 * m2 + w2 * m1))%Qc
      with ((w1 + w2) * (m1 * m2) + ((1 + 1) * w2 - w1) * (m1 * m2) + (1 + 1 + 1) * (w1 * m2 * m2))%Qc by ring. ql.
Qed.
Lemma pchip3_tame p q r : (fst p < fst q)%Qc -> (fst q < fst r)%Qc ->
  tame (chord p q) (pchip3 (p, q, r)) /\ tame (chord q r) (pchip3 (p, q, r)).
Proof.
  intros H1 H2. unfold pchip3. num_qc. set (m1 := chord p q). set (m2 := chord q r).
  assert (P1 : (0 < gap p q)%Qc) by (unfold gap; num_qc; ql). assert (P2 : (0 < gap q r)%Qc) by (unfold gap; num_qc; ql).
  set (h1 := gap p q) in *. set (h2 := gap q r) in *. clearbody m1 m2 h1 h2.
  destruct (Z.eqb_spec (nsign m2) (nsign m1)) as [Es|Es]; cbn [negb orb]; [|split; apply tame_zero].
  destruct (Qc_eqb m2 (Q2Qc 0)) eqn:Z2; cbn [orb]; [split; apply tame_zero|].
  destruct (Qc_eqb m1 (Q2Qc 0)) eqn:Z1; cbn [orb]; [split; apply tame_zero|]. qc_bool.
  cbv zeta. rewrite two_qc. change (Q2Qc 1) with 1%Qc. change (Q2Qc 0) with 0%Qc in *.
  assert (C : ((0 < m1)%Qc /\ (0 < m2)%Qc) \/ ((m1 < 0)%Qc /\ (m2 < 0)%Qc)).
  { destruct (nsign_cases m1) as [[S1 T1]|[[S1 T1]|[S1 T1]]], (nsign_cases m2) as [[S2 T2]|[[S2 T2]|[S2 T2]]]; try lia; auto; contradiction. }
  destruct C as [[M1 M2]|[M1 M2]].
  - destruct (harmonic h1 h2 m1 m2 P1 P2 M1 M2) as (A & B & D). cbv zeta in *. split; left; repeat split; auto; ql.
  - destruct (harmonic h1 h2 (- m1) (- m2) P1 P2) as (A & B & D); [ql|ql|]. cbv zeta in *.
    set (w1 := ((1 + 1) * h2 + h1)%Qc) in *. set (w2 := (h2 + (1 + 1) * h1)%Qc) in *.
    assert (W1 : (0 < w1)%Qc) by (unfold w1; ql). assert (W2 : (0 < w2)%Qc) by (unfold w2; ql). clearbody w1 w2.
    assert (E : (1 / ((w1 / - m1 + w2 / - m2) / (w1 + w2)) = - (1 / ((w1 / m1 + w2 / m2) / (w1 + w2))))%Qc).
    { unfold Qcdiv. replace (- m1)%Qc with (- (1) * m1)%Qc by ring. replace (- m2)%Qc with (- (1) * m2)%Qc by ring.
      rewrite !Qcinv_mult_distr. change (/ - (1))%Qc with (- (1))%Qc.
      replace (w1 * (- (1) * / m1) + w2 * (- (1) * / m2))%Qc with (- (1) * (w1 * / m1 + w2 * / m2))%Qc by ring.
      rewrite !Qcinv_mult_distr. change (/ - (1))%Qc with (- (1))%Qc. ring. }
    rewrite E in *. set (d := (1 / ((w1 / m1 + w2 / m2) / (w1 + w2)))%Qc) in *. clearbody d.
    split; apply tame_opp; left; repeat split; auto; ql.
Qed.

(** ** One piece *)
Lemma shape_up s d0 d1 t t' : (0 <= s)%Qc -> (0 <= d0)%Qc -> (d0 <= (1 + 1 + 1) * s)%Qc -> (0 <= d1)%Qc -> (d1 <= (1 + 1 + 1) * s)%Qc ->
  (0 <= t)%Qc -> (t <= t')%Qc -> (t' <= 1)%Qc ->
  let F t := (s * ((1 + 1 + 1) * t * t - (1 + 1) * t * t * t) + d0 * (t - (1 + 1) * t * t + t * t * t) + d1 * (t * t * t - t * t))%Qc in
  (F t <= F t')%Qc.
Proof.
  intros Hs A0 A1 B0 B1 T0 TT T1 F.
  set (dg := (((1 + 1 + 1) * t' * t' - (1 + 1) * t' * t' * t') - ((1 + 1 + 1) * t * t - (1 + 1) * t * t * t))%Qc).
  set (da := ((t' - (1 + 1) * t' * t' + t' * t' * t') - (t - (1 + 1) * t * t + t * t * t))%Qc).
  set (db := ((t' * t' * t' - t' * t') - (t * t * t - t * t))%Qc).
  assert (ED : (F t' - F t = s * dg + d0 * da + d1 * db)%Qc) by (unfold F, dg, da, db; ring).
  assert (S0 : (0 <= t' - t)%Qc) by ql.
  assert (MM : forall x y : Qc, (0 <= x)%Qc -> (0 <= y)%Qc -> (0 <= x * y)%Qc) by exact mul_nonneg.
  assert (G1 : (0 <= dg)%Qc).
  { unfold dg. replace (((1 + 1 + 1) * t' * t' - (1 + 1) * t' * t' * t') - ((1 + 1 + 1) * t * t - (1 + 1) * t * t * t))%Qc
      with ((t' - t) * ((1 + 1 + 1) * (t + t') - (1 + 1) * (t * t + t * t' + t' * t')))%Qc by ring.
    apply MM; auto. assert (0 <= t * (1 - t))%Qc by (apply MM; ql). assert (0 <= t' * (1 - t'))%Qc by (apply MM; ql).
    assert (0 <= t * (1 - t'))%Qc by (apply MM; ql). assert (0 <= t' * (1 - t))%Qc by (apply MM; ql). qcnra. }
  assert (G2 : (0 <= dg + (1 + 1 + 1) * da)%Qc).
  { unfold dg, da. match goal with |- (0 <= ?x)%Qc => replace x with ((t' - t) * ((1 - t) * (1 - t) + (1 - t) * (1 - t') + (1 - t') * (1 - t')))%Qc by ring end.
    apply MM; auto. assert (0 <= (1 - t) * (1 - t))%Qc by (apply MM; ql). assert (0 <= (1 - t) * (1 - t'))%Qc by (apply MM; ql).
    assert (0 <= (1 - t') * (1 - t'))%Qc by (apply MM; ql). ql. }
  assert (G3 : (0 <= dg + (1 + 1 + 1) * db)%Qc).
  { unfold dg, db. match goal with |- (0 <= ?x)%Qc => replace x with ((t' - t) * (t * t + t * t' + t' * t'))%Qc by ring end.
    apply MM; auto. assert (0 <= t * t)%Qc by (apply MM; ql). assert (0 <= t * t')%Qc by (apply MM; ql). assert (0 <= t' * t')%Qc by (apply MM; ql). ql. }
  assert (G4 : (0 <= dg + (1 + 1 + 1) * da + (1 + 1 + 1) * db)%Qc).
  { unfold dg, da, db. match goal with |- (0 <= ?x)%Qc => replace x with ((t' - t) * (((1 + 1) * t - 1) * ((1 + 1) * t - 1) + ((1 + 1) * t - 1) * ((1 + 1) * t' - 1) + ((1 + 1) * t' - 1) * ((1 + 1) * t' - 1)))%Qc by ring end.
    apply MM; auto. set (x := ((1 + 1) * t - 1)%Qc). set (y := ((1 + 1) * t' - 1)%Qc). qcnra. }
  clearbody dg da db. apply Qcle_minus_iff. change (0 <= F t' - F t)%Qc. rewrite ED.
  set (l := (d0 / (1 + 1 + 1))%Qc). set (m := (d1 / (1 + 1 + 1))%Qc).
  assert (EL : (d0 = (1 + 1 + 1) * l)%Qc) by (unfold l; field; discriminate).
  assert (EM : (d1 = (1 + 1 + 1) * m)%Qc) by (unfold m; field; discriminate). clearbody l m. subst d0 d1.
  destruct (Qclt_le_dec s (l + m)) as [C|C].
  - replace (s * dg + (1 + 1 + 1) * l * da + (1 + 1 + 1) * m * db)%Qc with
      ((s - l) * (dg + (1 + 1 + 1) * db) + (s - m) * (dg + (1 + 1 + 1) * da) + (l + m - s) * (dg + (1 + 1 + 1) * da + (1 + 1 + 1) * db))%Qc by ring.
    assert (0 <= (s - l) * (dg + (1 + 1 + 1) * db))%Qc by (apply MM; [ql|auto]).
    assert (0 <= (s - m) * (dg + (1 + 1 + 1) * da))%Qc by (apply MM; [ql|auto]).
    assert (0 <= (l + m - s) * (dg + (1 + 1 + 1) * da + (1 + 1 + 1) * db))%Qc by (apply MM; [ql|auto]). ql.
  - replace (s * dg + (1 + 1 + 1) * l * da + (1 + 1 + 1) * m * db)%Qc with
      ((s - l - m) * dg + l * (dg + (1 + 1 + 1) * da) + m * (dg + (1 + 1 + 1) * db))%Qc by ring.
    assert (0 <= (s - l - m) * dg)%Qc by (apply MM; [ql|auto]).
    assert (0 <= l * (dg + (1 + 1 + 1) * da))%Qc by (apply MM; [ql|auto]).
    assert (0 <= m * (dg + (1 + 1 + 1) * db))%Qc by (apply MM; [ql|auto]). ql.
Qed.
Lemma frac_bounds (x0 x1 u : Qc) : (x0 < x1)%Qc -> (x0 <= u)%Qc -> (u <= x1)%Qc -> (0 <= (u - x0) / (x1 - x0) /\ (u - x0) / (x1 - x0) <= 1)%Qc.
Proof.
  intros Hx H0 H1. assert (P : (0 < x1 - x0)%Qc) by ql.
  assert (E : ((u - x0) / (x1 - x0) * (x1 - x0) = u - x0)%Qc) by (field; intros C; ql).
  split; apply (Qcmult_lt_0_le_reg_r _ _ _ P); rewrite E; ql.
Qed.
Lemma frac_le (x0 x1 u u' : Qc) : (x0 < x1)%Qc -> (u <= u')%Qc -> ((u - x0) / (x1 - x0) <= (u' - x0) / (x1 - x0))%Qc.
Proof.
  intros Hx H0. assert (P : (0 < x1 - x0)%Qc) by ql. apply (Qcmult_lt_0_le_reg_r _ _ _ P).
  replace ((u - x0) / (x1 - x0) * (x1 - x0))%Qc with (u - x0)%Qc by (field; intros C; ql).
  replace ((u' - x0) / (x1 - x0) * (x1 - x0))%Qc with (u' - x0)%Qc by (field; intros C; ql). ql.
Qed.
Lemma hermite_up x0 y0 d0 x1 y1 d1 u u' : (x0 < x1)%Qc -> (y0 <= y1)%Qc ->
  let s := ((y1 - y0) / (x1 - x0))%Qc in tame s d0 -> tame s d1 ->
  (x0 <= u)%Qc -> (u <= u')%Qc -> (u' <= x1)%Qc ->
  (hermite_at x0 y0 d0 x1 y1 d1 u <= hermite_at x0 y0 d0 x1 y1 d1 u')%Qc.
Proof.
  intros Hx Hy s T0 T1 U0 UU U1. assert (P : (0 < x1 - x0)%Qc) by ql.
  assert (ES : (s * (x1 - x0) = y1 - y0)%Qc) by (unfold s; field; intros C; ql).
  assert (S0 : (0 <= s)%Qc) by (apply (Qcmult_lt_0_le_reg_r _ _ _ P); rewrite ES; ql).
  assert (B0 : (0 <= d0 /\ d0 <= (1 + 1 + 1) * s)%Qc) by (destruct T0 as [(A & B & C)|(A & B & C)]; split; ql).
  assert (B1 : (0 <= d1 /\ d1 <= (1 + 1 + 1) * s)%Qc) by (destruct T1 as [(A & B & C)|(A & B & C)]; split; ql).
  assert (EQ : forall w, hermite_at x0 y0 d0 x1 y1 d1 w = let t := ((w - x0) / (x1 - x0))%Qc in
    (y0 + (x1 - x0) * (s * ((1 + 1 + 1) * t * t - (1 + 1) * t * t * t) + d0 * (t - (1 + 1) * t * t + t * t * t) + d1 * (t * t * t - t * t)))%Qc).
  { intros w. unfold hermite_at, s. num_qc. rewrite two_qc. cbv zeta. field. intros C. ql. }
  rewrite !EQ. cbv zeta. destruct (frac_bounds x0 x1 u Hx U0 ltac:(ql)) as [V0 V1].
  destruct (frac_bounds x0 x1 u' Hx ltac:(ql) U1) as [V2 V3]. pose proof (frac_le x0 x1 u u' Hx UU) as V4.
  set (t := ((u - x0) / (x1 - x0))%Qc) in *. set (t' := ((u' - x0) / (x1 - x0))%Qc) in *. clearbody t t' s.
  destruct B0 as [B01 B02], B1 as [B11 B12].
  pose proof (shape_up s d0 d1 t t' S0 B01 B02 B11 B12 V0 V4 V3) as K. cbv zeta in K.
  match type of K with (?a <= ?b)%Qc => set (X := a) in *; set (Y := b) in * end. clearbody X Y.
  assert (G : (X * (x1 - x0) <= Y * (x1 - x0))%Qc) by (apply Qcmult_le_compat_r; [auto|ql]).
  rewrite !(Qcmult_comm _ (x1 - x0)%Qc) in G. apply Qcplus_le_compat; [apply Qcle_refl|exact G].
Qed.
Lemma hermite_mono x0 y0 d0 x1 y1 d1 u u' : (x0 < x1)%Qc ->
  let s := ((y1 - y0) / (x1 - x0))%Qc in tame s d0 -> tame s d1 ->
  (x0 <= u)%Qc -> (u <= u')%Qc -> (u' <= x1)%Qc ->
  ((y0 <= y1)%Qc -> (hermite_at x0 y0 d0 x1 y1 d1 u <= hermite_at x0 y0 d0 x1 y1 d1 u')%Qc) /\
  ((y1 <= y0)%Qc -> (hermite_at x0 y0 d0 x1 y1 d1 u' <= hermite_at x0 y0 d0 x1 y1 d1 u)%Qc).
Proof.
  intros Hx s T0 T1 U0 UU U1. split; intros Hy; [apply hermite_up; auto|].
  assert (EN : forall w, hermite_at x0 (- y0)%Qc (- d0)%Qc x1 (- y1)%Qc (- d1)%Qc w = (- hermite_at x0 y0 d0 x1 y1 d1 w)%Qc).
  { intros w. pose proof (hermite_affine (- (1))%Qc 0%Qc x0 y0 d0 x1 y1 d1 w) as E.
    replace (- (1) * y0 + 0)%Qc with (- y0)%Qc in E by ring. replace (- (1) * y1 + 0)%Qc with (- y1)%Qc in E by ring.
    rewrite (opp1 d0), (opp1 d1) in E. rewrite E. ring. }
  assert (TN : forall d, tame s d -> tame ((- y1 - - y0) / (x1 - x0))%Qc (- d)%Qc).
  { intros d Td. apply tame_opp. replace (- ((- y1 - - y0) / (x1 - x0)))%Qc with s by (unfold s, Qcdiv; ring).
    replace (- - d)%Qc with d by ring. exact Td. }
  pose proof (hermite_up x0 (- y0)%Qc (- d0)%Qc x1 (- y1)%Qc (- d1)%Qc u u' Hx ltac:(ql) (TN _ T0) (TN _ T1) U0 UU U1) as G.
  rewrite !EN in G. ql.
Qed.
