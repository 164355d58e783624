(** * ParabolProofs: extrema detection in 'parabol' mode (EMD.py:500-519, 552-610), exact. *)
From Verif Require Import PyFacts QcFacts Extrema Spec Runs EmdExact ExtremaSpec PrepareProofs SplineProofs.
From Coq Require Import ZifyBool ZifyNat QArith Qcanon.
Open Scope Z_scope.

(** ** Kept samples *)
Lemma mask_zseq a bs : mask (zseq a (length bs)) bs = nonzero_from a bs.
Proof. revert a. induction bs as [|b bs IH]; intros a; simpl; auto. rewrite IH. reflexivity. Qed.

Lemma map3_nth (f : Qc -> Qc -> Qc -> bool) S i : (Datatypes.S (Datatypes.S i) < length S)%nat ->
  nth_error (map3 f S (tl S) (tl (tl S))) i =
  Some (f (nth i S 0%Qc) (nth (Datatypes.S i) S 0%Qc) (nth (Datatypes.S (Datatypes.S i)) S 0%Qc)).
Proof.
  revert i. induction S as [|a S IH]; intros i Hi; [simpl in Hi; lia|].
  destruct S as [|b [|c S]]; try (simpl in Hi; lia).
  destruct i as [|i]; [reflexivity|]. cbn [tl map3 nth_error].
  change (map3 f (b :: c :: S) (tl (b :: c :: S)) (tl (tl (b :: c :: S)))) with
    (map3 f (b :: c :: S) (c :: S) S) in IH.
  rewrite IH by (simpl in *; lia). reflexivity.
Qed.
Lemma map3_length {A B C D} (f : A -> B -> C -> D) l m n :
  length (map3 f l m n) = Nat.min (length l) (Nat.min (length m) (length n)).
Proof. revert m n. induction l; destruct m, n; simpl; auto. Qed.

Lemma not_duplicate_spec S : (2 <= length S)%nat ->
  zincreasing (not_duplicate S) /\ forall i, In i (not_duplicate S) <-> kept S i.
Proof.
  intros Hn. unfold not_duplicate.
  set (keep := map3 _ S (tl S) (tl (tl S))).
  assert (HL : length keep = (length S - 2)%nat).
  { unfold keep. rewrite map3_length. destruct S as [|a [|b S]]; cbn [length tl] in *; lia. }
  unfold zrange. replace (Z.to_nat (zlen S - 1 - 1)) with (length keep) by (unfold zlen; lia).
  rewrite mask_zseq.
  assert (HI : forall i, In i (nonzero_from 1 keep) <->
    0 < i < zlen S - 1 /\ ~ (sample S i = sample S (i - 1) /\ sample S i = sample S (i + 1))).
  { intros i. rewrite nonzero_from_In.
    assert (Hk : forall j, (j < length keep)%nat -> nth_error keep j =
      Some (negb (neqb (sample S (Z.of_nat j + 1)) (sample S (Z.of_nat j)) &&
                  neqb (sample S (Z.of_nat j + 1)) (sample S (Z.of_nat j + 2))))).
    { intros j Hj. unfold keep. rewrite map3_nth by lia. unfold sample.
      replace (Z.to_nat (Z.of_nat j + 1)) with (Datatypes.S j) by lia.
      replace (Z.to_nat (Z.of_nat j + 2)) with (Datatypes.S (Datatypes.S j)) by lia.
      rewrite Nat2Z.id. reflexivity. }
    assert (Hb : forall x y z : Qc, negb (neqb x y && neqb x z) = true <-> ~ (x = y /\ x = z)).
    { intros x y z. num_qc. destruct (Qc_eqb x y) eqn:E1; destruct (Qc_eqb x z) eqn:E2; cbn [negb andb];
      rewrite ?Qc_eqb_eq, ?Qc_eqb_neq in *; intuition congruence. }
    split.
    - intros (j & H2 & ->). assert (Hj : (j < length keep)%nat) by (apply nth_error_Some; congruence).
      split; [unfold zlen; lia|]. rewrite Hk in H2 by auto. injection H2 as H2. apply Hb in H2.
      replace (1 + Z.of_nat j) with (Z.of_nat j + 1) by lia.
      replace (Z.of_nat j + 1 - 1) with (Z.of_nat j) by lia.
      replace (Z.of_nat j + 1 + 1) with (Z.of_nat j + 2) by lia. auto.
    - intros (H1 & H2). exists (Z.to_nat (i - 1)). split; [|lia].
      unfold zlen in H1. rewrite Hk by lia. f_equal. apply Hb.
      replace (Z.of_nat (Z.to_nat (i - 1)) + 1) with i by lia.
      replace (Z.of_nat (Z.to_nat (i - 1)) + 2) with (i + 1) by lia.
      replace (Z.of_nat (Z.to_nat (i - 1))) with (i - 1) by lia. auto. }
  split.
  - cbn [zincreasing app]. split.
    + intros y Hy. apply in_app_or in Hy as [Hy|[<-|[]]]; [apply HI in Hy; lia|unfold zlen; lia].
    + apply zincreasing_app. split; [apply nonzero_from_increasing|]. split; [simpl; tauto|].
      intros x y Hx [<-|[]]. apply HI in Hx. lia.
  - intros i. cbn [In app]. rewrite in_app_iff, HI. cbn [In]. unfold kept. fold (zlen S).
    assert (2 <= zlen S) by (unfold zlen; lia). split.
    + intros [<-|[[H1 H2]|[<-|[]]]]; (split; [lia|auto]).
    + intros (H1 & H2). destruct (Z.eq_dec i 0); auto. destruct (Z.eq_dec i (zlen S - 1)); auto.
      right; left. split; [lia|]. destruct H2 as [?|[?|?]]; auto; lia.
Qed.

(** Consecutive elements of an increasing list. *)
Lemma consecutive K i j k : zincreasing K ->
  ((exists pre post, K = pre ++ i :: j :: k :: post) <->
   In i K /\ In j K /\ In k K /\ i < j < k /\ forall m, In m K -> i < m < k -> m = j).
Proof.
  intros HK. split.
  - intros (pre & post & ->). pose proof HK as HK'. apply zincreasing_app in HK' as (_ & HK2 & HK3).
    destruct HK2 as (A1 & A2 & A3 & A4). simpl in A1, A2, A3.
    assert (i < j) by (apply A1; auto). assert (j < k) by (apply A2; auto).
    repeat split; auto; try (apply in_or_app; right; simpl; tauto).
    intros m Hm Hr. apply in_app_or in Hm as [Hm|[<-|[<-|[<-|Hm]]]];
      [specialize (HK3 m i Hm (or_introl eq_refl)); lia|lia|reflexivity|lia|apply A3 in Hm; lia].
  - revert HK. induction K as [|x K IH]; intros HK (H1 & H2 & H3 & H4 & H5); [destruct H1|].
    destruct HK as [HK1 HK2]. destruct H1 as [->|H1].
    + destruct H2 as [->|H2]; [lia|]. destruct H3 as [->|H3]; [lia|].
      destruct K as [|y K]; [destruct H2|]. destruct HK2 as [HK2 HK3].
      assert (y = j).
      { assert (i < y) by (apply HK1; left; auto).
        destruct (Z.eq_dec y k); [|apply H5; [right; left; auto|]].
        - subst. destruct H2 as [?|H2]; auto. apply HK2 in H2. lia.
        - destruct H3 as [?|H3]; [congruence|]. apply HK2 in H3. lia. }
      subst y. destruct H3 as [->|H3]; [lia|]. destruct K as [|z K]; [destruct H3|].
      assert (z = k).
      { destruct H3 as [?|H3]; auto. destruct HK3 as [HK3 _]. assert (z < k) by (apply HK3; auto).
        assert (j < z) by (apply HK2; left; auto).
        assert (z = j) by (apply H5; [simpl; auto|lia]). lia. }
      subst z. exists [], K. reflexivity.
    + assert (x < i) by auto. destruct H2 as [->|H2]; [lia|]. destruct H3 as [->|H3]; [lia|].
      destruct (IH HK2) as (pre & post & ->).
      { repeat split; auto; try lia. intros m Hm. apply H5. right; auto. }
      exists (x :: pre), post. reflexivity.
Qed.

(** ** One parabola *)
Definition two := (1 + 1)%Qc.
Lemma half_def : @nhalf Qc _ = (/ two)%Qc. Proof. apply Qc_is_canon. reflexivity. Qed.
Lemma two_ne : two <> 0%Qc. Proof. discriminate. Qed.
Definition eps : Qc := nlit 1 (10 ^ 14).

Lemma pos_mul_lt h s : (0 < h)%Qc -> ((s * h < 0)%Qc <-> (s < 0)%Qc).
Proof. intros Hh. split; intros X; destruct (Qclt_le_dec s 0) as [N|N]; auto; qcnra. Qed.
Lemma pos_mul_gt h s : (0 < h)%Qc -> ((0 < s * h)%Qc <-> (0 < s)%Qc).
Proof. intros Hh. split; intros X; destruct (Qclt_le_dec 0 s) as [N|N]; auto; qcnra. Qed.
Lemma neg_mul_lt h s : (h < 0)%Qc -> ((h * s < 0)%Qc <-> (0 < s)%Qc).
Proof. intros Hh. split; intros X; destruct (Qclt_le_dec 0 s) as [N|N]; auto; qcnra. Qed.
Lemma neg_mul_gt h s : (h < 0)%Qc -> ((0 < h * s)%Qc <-> (s < 0)%Qc).
Proof. intros Hh. split; intros X; destruct (Qclt_le_dec s 0) as [N|N]; auto; qcnra. Qed.
Lemma Qcnlt_le x y : (x <= y)%Qc <-> ~ (y < x)%Qc.
Proof. split; [intros H1 H2; qclra|intros H1; destruct (Qclt_le_dec y x); [contradiction|auto]]. Qed.

Section Vertex.
Variables Tp T0 Tn Sp S0 Sn : Qc.
Hypothesis H1 : (Tp < T0)%Qc.
Hypothesis H2 : (T0 < Tn)%Qc.
Let h := (T0 - Tp)%Qc.
Let g := (Tn - T0)%Qc.
Let s1 := ((S0 - Sp) / h)%Qc.
Let s2 := ((Sn - S0) / g)%Qc.
Let a := ((s2 - s1) / (h + g))%Qc.
Let b := (s1 - a * (Tp + T0))%Qc.
Let c := (Sp - a * Tp * Tp - b * Tp)%Qc.

Let hp : (0 < h)%Qc. Proof. unfold h. qclra. Qed.
Let gp : (0 < g)%Qc. Proof. unfold g. qclra. Qed.
Let hne : (T0 - Tp)%Qc <> 0%Qc. Proof. intros E. qclra. Qed.
Let gne : (Tn - T0)%Qc <> 0%Qc. Proof. intros E. qclra. Qed.
Let hgne : (T0 - Tp + (Tn - T0))%Qc <> 0%Qc. Proof. intros E. qclra. Qed.
Let kne : (Tn - Tp)%Qc <> 0%Qc. Proof. intros E. qclra. Qed.

Lemma through : on_parabola a b c Tp Sp /\ on_parabola a b c T0 S0 /\ on_parabola a b c Tn Sn.
Proof. unfold on_parabola, c, b, a, s1, s2, h, g. repeat split; field; auto. Qed.

Lemma through_unique a' b' c' :
  on_parabola a' b' c' Tp Sp -> on_parabola a' b' c' T0 S0 -> on_parabola a' b' c' Tn Sn ->
  a' = a /\ b' = b /\ c' = c.
Proof.
  unfold on_parabola. intros E1 E2 E3.
  assert (Ea : a' = a).
  { unfold a, s1, s2, h, g. rewrite E1, E2, E3. field. auto. }
  assert (Eb : b' = b).
  { unfold b. rewrite <- Ea. unfold s1, h. rewrite E1, E2. field. auto. }
  split; auto. split; auto. unfold c. rewrite <- Ea, <- Eb, E1. ring.
Qed.

Let A := (if Qc_eqb a 0 then eps else a)%Qc.
Let tv := (- (b / (two * A)))%Qc.

Lemma vertex_compute :
  parabol_vertex Tp T0 Tn Sp S0 Sn =
  if Qc_ltb (tv + tv) (T0 + Tn) && Qc_leb (Tp + T0) (tv + tv)
  then Some (A, tv, (A * tv * tv + b * tv + c)%Qc) else None.
Proof.
  unfold parabol_vertex. cbv zeta. num_qc. unfold is0. num_qc.
  set (scale := (Tp * Tn * Tn + Tp * Tp * T0 + T0 * T0 * Tn - Tp * Tp * Tn - Tp * T0 * T0 - T0 * Tn * Tn)%Qc).
  assert (Hs : scale = (- ((T0 - Tp) * (Tn - T0) * (Tn - Tp)))%Qc) by (unfold scale; ring).
  assert (Hsn : (- ((T0 - Tp) * (Tn - T0) * (Tn - Tp)))%Qc <> 0%Qc).
  { intros E. assert (X : ((T0 - Tp) * (Tn - T0) * (Tn - Tp))%Qc = 0%Qc).
    { transitivity (- - ((T0 - Tp) * (Tn - T0) * (Tn - Tp)))%Qc; [ring|rewrite E; ring]. }
    apply Qcmult_integral in X as [X|X]; auto. apply Qcmult_integral in X as [X|X]; auto. }
  assert (Ea : (((T0 - Tn) * Sp + (Tn - Tp) * S0 + (Tp - T0) * Sn) / scale = a)%Qc).
  { rewrite Hs. unfold a, s1, s2, h, g. field. auto 10. }
  assert (Eb : (((S0 - Sn) * (Tp * Tp) + (Sn - Sp) * (T0 * T0) + (Sp - S0) * (Tn * Tn)) / scale = b)%Qc).
  { rewrite Hs. unfold b, a, s1, s2, h, g. field. auto 10. }
  assert (Ec : ((T0 * Tn * (T0 - Tn) * Sp + Tn * Tp * (Tn - Tp) * S0 + Tp * T0 * (Tp - T0) * Sn) / scale = c)%Qc).
  { rewrite Hs. unfold c, b, a, s1, s2, h, g. field. auto 10. }
  rewrite Ea, Eb, Ec. change (Q2Qc 0) with 0%Qc. fold eps. fold A.
  assert (HA : A <> 0%Qc).
  { unfold A. destruct (Qc_eqb a 0) eqn:E; [discriminate|apply Qc_eqb_neq; auto]. }
  assert (Et : (- nhalf * b / A = tv)%Qc).
  { rewrite half_def. unfold tv. field. split; [exact HA|exact two_ne]. }
  rewrite Et, !half_def.
  assert (W1 : Qc_ltb tv (T0 + / two * (Tn - T0)) = Qc_ltb (tv + tv) (T0 + Tn)).
  { replace (T0 + / two * (Tn - T0))%Qc with ((T0 + Tn) * / two)%Qc by (unfold two; field; exact two_ne).
    destruct (Qc_ltb (tv + tv) (T0 + Tn)) eqn:E; qc_bool.
    - replace tv with ((tv + tv) * / two)%Qc at 1 by (unfold two; field; exact two_ne).
      apply Qcmult_lt_compat_r; auto. reflexivity.
    - replace tv with ((tv + tv) * / two)%Qc at 1 by (unfold two; field; exact two_ne).
      apply Qcmult_le_compat_r; auto. discriminate. }
  assert (W2 : Qc_leb (T0 - / two * (T0 - Tp)) tv = Qc_leb (Tp + T0) (tv + tv)).
  { replace (T0 - / two * (T0 - Tp))%Qc with ((Tp + T0) * / two)%Qc by (unfold two; field; exact two_ne).
    destruct (Qc_leb (Tp + T0) (tv + tv)) eqn:E; qc_bool.
    - replace tv with ((tv + tv) * / two)%Qc at 1 by (unfold two; field; exact two_ne).
      apply Qcmult_le_compat_r; auto. discriminate.
    - replace tv with ((tv + tv) * / two)%Qc at 1 by (unfold two; field; exact two_ne).
      apply Qcmult_lt_compat_r; auto. reflexivity. }
  rewrite W1, W2. reflexivity.
Qed.

(** Slopes of the parabola at the two midpoints are the slopes of the two chords. *)
Lemma slope1 : (a * (Tp + T0) + b = s1)%Qc. Proof. unfold b. ring. Qed.
Lemma slope2 : (a * (T0 + Tn) + b = s2)%Qc.
Proof. unfold b, a, s1, s2, h, g. field. auto. Qed.
Lemma s1_scale : (s1 * h = S0 - Sp)%Qc. Proof. unfold s1, h. field. auto. Qed.
Lemma s2_scale : (s2 * g = Sn - S0)%Qc. Proof. unfold s2, g. field. auto. Qed.
Lemma a_scale : (a * (h + g) = s2 - s1)%Qc. Proof. unfold a, h, g. field. auto. Qed.

(** The parabola opens downwards with its vertex in the window exactly when the middle sample
    is at least the previous one and above the next one. *)
Lemma rule_max t : ((1 + 1) * a * t + b = 0)%Qc ->
  ((a < 0)%Qc /\ in_window Tp T0 Tn t) <-> ((a < 0)%Qc /\ (Sp <= S0)%Qc /\ (Sn < S0)%Qc).
Proof.
  intros Ht. pose proof slope1 as L1. pose proof slope2 as L2. pose proof s1_scale as M1.
  pose proof s2_scale as M2.
  assert (D1 : (s1 = a * (Tp + T0 - (t + t)))%Qc).
  { rewrite <- L1. transitivity (a * (Tp + T0) + b - ((1 + 1) * a * t + b))%Qc; [rewrite Ht; ring|ring]. }
  assert (D2 : (s2 = a * (T0 + Tn - (t + t)))%Qc).
  { rewrite <- L2. transitivity (a * (T0 + Tn) + b - ((1 + 1) * a * t + b))%Qc; [rewrite Ht; ring|ring]. }
  pose proof (pos_mul_lt h s1 hp) as P1. pose proof (pos_mul_lt g s2 gp) as P2.
  rewrite M1 in P1. rewrite M2 in P2. rewrite D1 in P1. rewrite D2 in P2.
  unfold in_window. split; intros (Ha & X & Y); split; auto;
    rewrite (neg_mul_lt a _ Ha) in P1; rewrite (neg_mul_lt a _ Ha) in P2; rewrite ?Qcnlt_le in *; split.
  - intros N. apply X. assert (Q : (S0 - Sp < 0)%Qc) by qclra. apply P1 in Q. qclra.
  - assert (Q : (0 < T0 + Tn - (t + t))%Qc) by qclra. apply P2 in Q. qclra.
  - intros N. apply X. assert (Q : (0 < Tp + T0 - (t + t))%Qc) by qclra. apply P1 in Q. qclra.
  - assert (Q : (Sn - S0 < 0)%Qc) by qclra. apply P2 in Q. qclra.
Qed.
Lemma rule_max_opens : (Sp <= S0)%Qc -> (Sn < S0)%Qc -> (a < 0)%Qc.
Proof.
  intros X Y. pose proof (pos_mul_lt h s1 hp) as P1. pose proof (pos_mul_lt g s2 gp) as P2.
  rewrite s1_scale in P1. rewrite s2_scale in P2.
  pose proof (pos_mul_lt (h + g) a) as P3. rewrite a_scale in P3. apply P3.
  - pose proof hp. pose proof gp. qclra.
  - assert (s2 < 0)%Qc by (apply P2; qclra).
    assert (~ (s1 < 0)%Qc) by (intros N; apply P1 in N; qclra).
    rewrite <- Qcnlt_le in *. qclra.
Qed.

Lemma rule_min t : ((1 + 1) * a * t + b = 0)%Qc ->
  ((0 < a)%Qc /\ in_window Tp T0 Tn t) <-> ((0 < a)%Qc /\ (S0 <= Sp)%Qc /\ (S0 < Sn)%Qc).
Proof.
  intros Ht. pose proof slope1 as L1. pose proof slope2 as L2. pose proof s1_scale as M1.
  pose proof s2_scale as M2.
  assert (D1 : (s1 = (Tp + T0 - (t + t)) * a)%Qc).
  { rewrite <- L1. transitivity (a * (Tp + T0) + b - ((1 + 1) * a * t + b))%Qc; [rewrite Ht; ring|ring]. }
  assert (D2 : (s2 = (T0 + Tn - (t + t)) * a)%Qc).
  { rewrite <- L2. transitivity (a * (T0 + Tn) + b - ((1 + 1) * a * t + b))%Qc; [rewrite Ht; ring|ring]. }
  pose proof (pos_mul_gt h s1 hp) as P1. pose proof (pos_mul_gt g s2 gp) as P2.
  rewrite M1 in P1. rewrite M2 in P2. rewrite D1 in P1. rewrite D2 in P2.
  unfold in_window. split; intros (Ha & X & Y); split; auto;
    rewrite (pos_mul_gt a _ Ha) in P1; rewrite (pos_mul_gt a _ Ha) in P2; rewrite ?Qcnlt_le in *; split.
  - intros N. apply X. assert (Q : (0 < S0 - Sp)%Qc) by qclra. apply P1 in Q. qclra.
  - assert (Q : (0 < T0 + Tn - (t + t))%Qc) by qclra. apply P2 in Q. qclra.
  - intros N. apply X. assert (Q : (0 < Tp + T0 - (t + t))%Qc) by qclra. apply P1 in Q. qclra.
  - assert (Q : (0 < Sn - S0)%Qc) by qclra. apply P2 in Q. qclra.
Qed.
Lemma rule_min_opens : (S0 <= Sp)%Qc -> (S0 < Sn)%Qc -> (0 < a)%Qc.
Proof.
  intros X Y. pose proof (pos_mul_gt h s1 hp) as P1. pose proof (pos_mul_gt g s2 gp) as P2.
  rewrite s1_scale in P1. rewrite s2_scale in P2.
  pose proof (pos_mul_gt (h + g) a) as P3. rewrite a_scale in P3. apply P3.
  - pose proof hp. pose proof gp. qclra.
  - assert (0 < s2)%Qc by (apply P2; qclra).
    assert (~ (0 < s1)%Qc) by (intros N; apply P1 in N; qclra).
    rewrite <- Qcnlt_le in *. qclra.
Qed.

Definition tri a' b' c' := on_parabola a' b' c' Tp Sp /\ on_parabola a' b' c' T0 S0 /\ on_parabola a' b' c' Tn Sn.

Let A_ne : A <> 0%Qc.
Proof. unfold A. destruct (Qc_eqb a 0) eqn:E; [discriminate|apply Qc_eqb_neq; auto]. Qed.
Let tv_unique x t : x <> 0%Qc -> ((1 + 1) * x * t + b = 0)%Qc <-> t = (- (b / (two * x)))%Qc.
Proof.
  intros Hx. split.
  - intros E. assert (E' : b = (- ((1 + 1) * x * t))%Qc).
    { transitivity ((1 + 1) * x * t + b - (1 + 1) * x * t)%Qc; [ring|rewrite E; ring]. }
    rewrite E'. unfold two. field. split; [exact Hx|exact two_ne].
  - intros ->. unfold two. field. split; [exact Hx|exact two_ne].
Qed.
Let some_iff x t v : parabol_vertex Tp T0 Tn Sp S0 Sn = Some (x, t, v) <->
  x = A /\ is_vertex A b c t v /\ in_window Tp T0 Tn t.
Proof.
  rewrite vertex_compute. unfold is_vertex. rewrite (tv_unique A t A_ne). fold tv. unfold on_parabola, in_window. split.
  - destruct (_ && _) eqn:E; [|discriminate]. apply andb_prop in E as [E1 E2]. qc_bool.
    intros E. injection E. clear E. intros. subst x t v. auto.
  - intros (-> & (-> & ->) & X & Y). apply Qc_leb_le in X. apply Qc_ltb_lt in Y. rewrite X, Y. reflexivity.
Qed.

Lemma vertex_max t v :
  (exists x, parabol_vertex Tp T0 Tn Sp S0 Sn = Some (x, t, v) /\ (x < 0)%Qc) <->
  (exists a' b' c', tri a' b' c' /\ (a' < 0)%Qc /\ is_vertex a' b' c' t v /\ in_window Tp T0 Tn t).
Proof.
  split.
  - intros (x & E & Hx). apply some_iff in E as (-> & V & W).
    unfold A in *. destruct (Qc_eqb a 0) eqn:E; [exfalso; apply (Qclt_not_le _ _ Hx); discriminate|].
    exists a, b, c. split; [apply through|]. auto.
  - intros (a' & b' & c' & (X1 & X2 & X3) & Ha & V & W).
    destruct (through_unique _ _ _ X1 X2 X3) as (-> & -> & ->).
    assert (A = a).
    { unfold A. destruct (Qc_eqb a 0) eqn:E; auto. qc_bool. rewrite E in Ha. discriminate. }
    exists a. split; auto. apply some_iff. rewrite H. auto.
Qed.

Lemma vertex_min t v :
  (exists x, parabol_vertex Tp T0 Tn Sp S0 Sn = Some (x, t, v) /\ (0 < x)%Qc) <->
  (exists a' b' c', tri a' b' c' /\ in_window Tp T0 Tn t /\
     (((0 < a')%Qc /\ is_vertex a' b' c' t v) \/ (a' = 0%Qc /\ is_vertex eps b' c' t v))).
Proof.
  split.
  - intros (x & E & Hx). apply some_iff in E as (-> & V & W).
    exists a, b, c. split; [apply through|]. split; auto.
    unfold A in *. destruct (Qc_eqb a 0) eqn:E; auto. qc_bool. auto.
  - intros (a' & b' & c' & (X1 & X2 & X3) & W & V).
    destruct (through_unique _ _ _ X1 X2 X3) as (-> & -> & ->).
    destruct V as [[Ha V]|[Ha V]].
    + assert (A = a).
      { unfold A. destruct (Qc_eqb a 0) eqn:E; auto. qc_bool. rewrite E in Ha. discriminate. }
      exists a. split; auto. apply some_iff. rewrite H. auto.
    + assert (A = eps) by (unfold A; rewrite Ha; reflexivity).
      exists eps. split; [|reflexivity]. apply some_iff. rewrite H. auto.
Qed.

(** The rule without parabolas. *)
Lemma vertex_max_rule : (exists t v, exists a' b' c', tri a' b' c' /\ (a' < 0)%Qc /\ is_vertex a' b' c' t v /\ in_window Tp T0 Tn t)
  <-> ((Sp <= S0)%Qc /\ (Sn < S0)%Qc).
Proof.
  split.
  - intros (t & v & a' & b' & c' & (X1 & X2 & X3) & Ha & [V1 V2] & W).
    destruct (through_unique _ _ _ X1 X2 X3) as (-> & -> & ->).
    apply (rule_max t V1). auto.
  - intros (X & Y). pose proof (rule_max_opens X Y) as Ha.
    assert (a <> 0%Qc) by (intros E; rewrite E in Ha; discriminate).
    set (t := (- (b / (two * a)))%Qc).
    assert (V1 : ((1 + 1) * a * t + b = 0)%Qc) by (apply tv_unique; auto).
    exists t, (a * t * t + b * t + c)%Qc, a, b, c. split; [apply through|].
    split; auto. split; [split; [auto|reflexivity]|]. apply (rule_max t V1). auto.
Qed.
Lemma vertex_min_rule : (exists t v, exists a' b' c', tri a' b' c' /\ in_window Tp T0 Tn t /\
     (((0 < a')%Qc /\ is_vertex a' b' c' t v)))
  <-> ((S0 <= Sp)%Qc /\ (S0 < Sn)%Qc).
Proof.
  split.
  - intros (t & v & a' & b' & c' & (X1 & X2 & X3) & W & Ha & [V1 V2]).
    destruct (through_unique _ _ _ X1 X2 X3) as (-> & -> & ->).
    apply (rule_min t V1). auto.
  - intros (X & Y). pose proof (rule_min_opens X Y) as Ha.
    assert (a <> 0%Qc) by (intros E; rewrite E in Ha; discriminate).
    set (t := (- (b / (two * a)))%Qc).
    assert (V1 : ((1 + 1) * a * t + b = 0)%Qc) by (apply tv_unique; auto).
    exists t, (a * t * t + b * t + c)%Qc, a, b, c. split; [apply through|].
    split; [apply (rule_min t V1); auto|]. split; auto. split; [auto|reflexivity].
Qed.
Lemma vertex_window x t v : parabol_vertex Tp T0 Tn Sp S0 Sn = Some (x, t, v) -> in_window Tp T0 Tn t.
Proof. intros E. apply some_iff in E as (_ & _ & W). exact W. Qed.
End Vertex.

(** ** The scan over all triples *)
Lemma scan_In T S K v : 
  In v (parabol_scan (map (sample T) K) (map (sample S) K)) <->
  exists i j k pre post, K = pre ++ i :: j :: k :: post /\
    parabol_vertex (sample T i) (sample T j) (sample T k) (sample S i) (sample S j) (sample S k) = Some v.
Proof.
  induction K as [|x K IH].
  - simpl. split; [tauto|]. intros (i & j & k & pre & post & E & _). destruct pre; discriminate.
  - destruct K as [|y [|z K]].
    + simpl. split; [tauto|]. intros (i & j & k & pre & post & E & _). destruct pre as [|? [|? [|]]]; discriminate.
    + simpl. split; [tauto|]. intros (i & j & k & pre & post & E & _). destruct pre as [|? [|? [|]]]; discriminate.
    + change (map (sample T) (x :: y :: z :: K)) with (sample T x :: map (sample T) (y :: z :: K)).
      change (map (sample S) (x :: y :: z :: K)) with (sample S x :: map (sample S) (y :: z :: K)).
      cbn [parabol_scan map]. cbn [map] in IH.
      set (rest := parabol_scan (sample T y :: sample T z :: map (sample T) K) _) in *.
      transitivity (parabol_vertex (sample T x) (sample T y) (sample T z) (sample S x) (sample S y) (sample S z) = Some v \/ In v rest).
      { destruct (parabol_vertex _ _ _ _ _ _) as [w|].
        - cbn [In]. split; intros [E|E]; auto; left; congruence.
        - split; [auto|]. intros [E|E]; [discriminate|auto]. }
      rewrite IH. split.
      * intros [E|(i & j & k & pre & post & E & E2)].
        -- exists x, y, z, [], K. auto.
        -- exists i, j, k, (x :: pre), post. rewrite E. auto.
      * intros (i & j & k & pre & post & E & E2). destruct pre as [|x' pre].
        -- simpl in E. injection E. intros; subst. auto.
        -- simpl in E. injection E. intros E' _. right. exists i, j, k, pre, post. auto.
Qed.

Lemma increasing_nth l i j : increasing l -> (i < j < length l)%nat -> (nth i l 0 < nth j l 0)%Qc.
Proof.
  intros Hl [H1 H2]. induction H1 as [|j H1 IH].
  - apply Hl; auto.
  - apply Qclt_trans with (nth j l 0%Qc); [apply IH; lia|apply Hl; auto].
Qed.
Lemma sample_lt T i j : increasing T -> 0 <= i < j -> j < zlen T -> (sample T i < sample T j)%Qc.
Proof. intros HT Hi Hj. unfold sample. apply increasing_nth; auto; unfold zlen in *; lia. Qed.

Lemma increasing_cons x l : (forall y, In y l -> (x < y)%Qc) -> increasing l -> increasing (x :: l).
Proof.
  intros H1 H2 [|i] Hi; simpl in Hi |- *.
  - apply H1. apply nth_In. lia.
  - apply H2. lia.
Qed.
Lemma increasing_filter (p : Qc * Qc * Qc -> bool) l :
  increasing (map (fun v => snd (fst v)) l) -> increasing (map (fun v => snd (fst v)) (filter p l)).
Proof.
  induction l as [|x l IH]; auto. intros H. cbn [map filter] in *.
  pose proof (increasing_tl _ _ H) as Ht. destruct (p x); auto.
  cbn [map]. apply increasing_cons; auto.
  intros y Hy. apply (increasing_head _ _ _ H). apply in_map_iff in Hy as (z & <- & Hz).
  apply filter_In in Hz as [Hz _]. apply in_map_iff. eauto.
Qed.

Lemma scan_increasing T S K : increasing T -> zincreasing K -> (forall i, In i K -> 0 <= i < zlen T) ->
  let vs := parabol_scan (map (sample T) K) (map (sample S) K) in
  increasing (map (fun v => snd (fst v)) vs) /\
  forall i j K', K = i :: j :: K' -> forall v, In v vs ->
    (sample T i + sample T j <= snd (fst v) + snd (fst v))%Qc.
Proof.
  intros HT. induction K as [|x K IH]; intros HK HR; [split; [intros i Hi; simpl in Hi; lia|discriminate]|].
  destruct HK as [HK1 HK2]. specialize (IH HK2 (fun i Hi => HR i (or_intror Hi))). cbv zeta in *.
  destruct K as [|y [|z K]].
  - split; [intros i Hi; simpl in Hi; lia|discriminate].
  - split; [intros i Hi; simpl in Hi; lia|]. intros ? ? ? _ v Hv. destruct Hv.
  - destruct IH as [I1 I2]. specialize (I2 y z K eq_refl).
    assert (Oxy : (sample T x < sample T y)%Qc).
    { pose proof (HR x (or_introl eq_refl)). pose proof (HR y (or_intror (or_introl eq_refl))).
      apply sample_lt; auto; [|lia]. specialize (HK1 y (or_introl eq_refl)). lia. }
    assert (Oyz : (sample T y < sample T z)%Qc).
    { pose proof (HR y (or_intror (or_introl eq_refl))). pose proof (HR z (or_intror (or_intror (or_introl eq_refl)))).
      apply sample_lt; auto; [|lia]. destruct HK2 as [HK2 _]. specialize (HK2 z (or_introl eq_refl)). lia. }
    change (map (sample T) (x :: y :: z :: K)) with (sample T x :: map (sample T) (y :: z :: K)).
    change (map (sample S) (x :: y :: z :: K)) with (sample S x :: map (sample S) (y :: z :: K)).
    cbn [parabol_scan map]. cbn [map] in I1, I2.
    set (rest := parabol_scan (sample T y :: sample T z :: map (sample T) K) _) in *.
    destruct (parabol_vertex _ _ _ _ _ _) as [[[u t] w]|] eqn:E.
    + destruct (vertex_window _ _ _ _ _ _ Oxy Oyz _ _ _ E) as [W1 W2]. split.
      * cbn [map]. apply increasing_cons; auto. intros q Hq. apply in_map_iff in Hq as (r & <- & Hr).
        apply I2 in Hr. cbn [fst snd]. qclra.
      * intros i j K' EK v [<-|Hv]; injection EK; intros; subst.
        -- exact W1.
        -- apply I2 in Hv. qclra.
    + split; auto. intros i j K' EK v Hv. injection EK; intros; subst. apply I2 in Hv. qclra.
Qed.

Lemma combine_map {A B C} (f : A -> B) (g : A -> C) l : combine (map f l) (map g l) = map (fun x => (f x, g x)) l.
Proof. induction l; simpl; f_equal; auto. Qed.

Definition vs_of T S := parabol_scan (map (sample T) (not_duplicate S)) (map (sample S) (not_duplicate S)).

Lemma take_sample l K : (forall i, In i K -> 0 <= i < zlen l) -> py_take l K = Ok (map (sample l) K).
Proof.
  intros H. apply take_samples. auto.
Qed.

Lemma parabol_result T S : (2 <= length S)%nat -> length T = length S ->
  find_extrema Parabol T S = Ok (MkExt
    (map (fun v => snd (fst v)) (filter (fun v => Qc_ltb (fst (fst v)) 0) (vs_of T S)))
    (map snd (filter (fun v => Qc_ltb (fst (fst v)) 0) (vs_of T S)))
    (map (fun v => snd (fst v)) (filter (fun v => Qc_ltb 0 (fst (fst v))) (vs_of T S)))
    (map snd (filter (fun v => Qc_ltb 0 (fst (fst v))) (vs_of T S))) (zero_crossings S)).
Proof.
  intros Hn HL. unfold find_extrema, find_extrema_parabol.
  rewrite !get_sample by (unfold zlen; lia). cbn [bind].
  destruct (not_duplicate_spec S Hn) as [_ HI].
  rewrite !take_sample; [reflexivity| |]; intros i Hi; apply HI in Hi as [Hi _]; unfold zlen; lia.
Qed.

Lemma In_vs T S v : (2 <= length S)%nat ->
  In v (vs_of T S) <-> exists i j k, kept_triple S i j k /\
    parabol_vertex (sample T i) (sample T j) (sample T k) (sample S i) (sample S j) (sample S k) = Some v.
Proof.
  intros Hn. destruct (not_duplicate_spec S Hn) as [HK HI]. unfold vs_of. rewrite scan_In.
  unfold kept_triple. split.
  - intros (i & j & k & pre & post & E & V). exists i, j, k. split; auto.
    rewrite <- !HI. destruct (proj1 (consecutive (not_duplicate S) i j k HK)) as (A1 & A2 & A3 & A4 & A5); [eauto|].
    repeat (split; [assumption|]). intros m Hm. apply A5. apply HI; auto.
  - intros (i & j & k & (A1 & A2 & A3 & A4 & A5) & V). apply HI in A1, A2, A3.
    destruct (proj2 (consecutive (not_duplicate S) i j k HK)) as (pre & post & E).
    { repeat (split; [assumption|]). intros m Hm. apply A5. apply HI; auto. }
    exists i, j, k, pre, post. auto.
Qed.

Lemma triple_times T S i j k : increasing T -> length T = length S -> kept_triple S i j k ->
  (sample T i < sample T j)%Qc /\ (sample T j < sample T k)%Qc.
Proof.
  intros HT HL ((A1 & _) & (A2 & _) & (A3 & _) & A4 & _).
  split; apply sample_lt; auto; unfold zlen; lia.
Qed.

Theorem parabol_max T S t v : increasing T -> (2 <= length S)%nat -> length T = length S ->
  forall e, find_extrema Parabol T S = Ok e ->
  In (t, v) (combine (max_pos e) (max_val e)) <->
  exists i j k a b c, kept_triple S i j k /\ parabola_through a b c T S i j k /\ (a < 0)%Qc /\
    is_vertex a b c t v /\ in_window (sample T i) (sample T j) (sample T k) t.
Proof.
  intros HT Hn HL e He. rewrite parabol_result in He by auto. injection He as <-. cbn [max_pos max_val].
  rewrite combine_map, in_map_iff. split.
  - intros ([[x t'] v'] & E & Hin). cbn [fst snd] in E. injection E as -> ->.
    apply filter_In in Hin as [Hin Hx]. cbn [fst snd] in Hx. qc_bool.
    apply In_vs in Hin as (i & j & k & K & V); auto.
    destruct (triple_times T S i j k HT HL K) as [O1 O2].
    destruct (proj1 (vertex_max _ _ _ (sample S i) (sample S j) (sample S k) O1 O2 t v)) as (a & b & c & X1 & X2 & X3 & X4); [eauto|].
    exists i, j, k, a, b, c. unfold parabola_through. auto.
  - intros (i & j & k & a & b & c & K & X1 & X2 & X3 & X4).
    destruct (triple_times T S i j k HT HL K) as [O1 O2].
    destruct (proj2 (vertex_max _ _ _ (sample S i) (sample S j) (sample S k) O1 O2 t v)) as (x & V & Hx).
    { exists a, b, c. auto. }
    exists (x, t, v). split; auto. apply filter_In. split; [apply In_vs; eauto|].
    cbn [fst]. qc_bool. exact Hx.
Qed.

Theorem parabol_min T S t v : increasing T -> (2 <= length S)%nat -> length T = length S ->
  forall e, find_extrema Parabol T S = Ok e ->
  In (t, v) (combine (min_pos e) (min_val e)) <->
  exists i j k a b c, kept_triple S i j k /\ parabola_through a b c T S i j k /\
    in_window (sample T i) (sample T j) (sample T k) t /\
    (((0 < a)%Qc /\ is_vertex a b c t v) \/ (a = 0%Qc /\ is_vertex eps b c t v)).
Proof.
  intros HT Hn HL e He. rewrite parabol_result in He by auto. injection He as <-. cbn [min_pos min_val].
  rewrite combine_map, in_map_iff. split.
  - intros ([[x t'] v'] & E & Hin). cbn [fst snd] in E. injection E as -> ->.
    apply filter_In in Hin as [Hin Hx]. cbn [fst snd] in Hx. qc_bool.
    apply In_vs in Hin as (i & j & k & K & V); auto.
    destruct (triple_times T S i j k HT HL K) as [O1 O2].
    destruct (proj1 (vertex_min _ _ _ (sample S i) (sample S j) (sample S k) O1 O2 t v)) as (a & b & c & X1 & X2 & X3); [eauto|].
    exists i, j, k, a, b, c. unfold parabola_through. auto.
  - intros (i & j & k & a & b & c & K & X1 & X2 & X3).
    destruct (triple_times T S i j k HT HL K) as [O1 O2].
    destruct (proj2 (vertex_min _ _ _ (sample S i) (sample S j) (sample S k) O1 O2 t v)) as (x & V & Hx).
    { exists a, b, c. auto. }
    exists (x, t, v). split; auto. apply filter_In. split; [apply In_vs; eauto|].
    cbn [fst]. qc_bool. exact Hx.
Qed.

Theorem parabol_ordered T S : increasing T -> (2 <= length S)%nat -> length T = length S ->
  exists e, find_extrema Parabol T S = Ok e /\ increasing (max_pos e) /\ increasing (min_pos e) /\
    length (max_val e) = length (max_pos e) /\ length (min_val e) = length (min_pos e).
Proof.
  intros HT Hn HL. eexists. split; [apply parabol_result; auto|]. cbn [max_pos min_pos max_val min_val].
  destruct (not_duplicate_spec S Hn) as [HK HI].
  destruct (scan_increasing T S (not_duplicate S) HT HK) as [I _].
  { intros i Hi. apply HI in Hi as [Hi _]. unfold zlen. lia. }
  split; [apply increasing_filter; exact I|]. split; [apply increasing_filter; exact I|].
  rewrite !map_length. auto.
Qed.

(** The rule in terms of samples only. *)
Theorem parabol_rule_max T S i j k : increasing T -> length T = length S -> kept_triple S i j k ->
  (exists t v a b c, parabola_through a b c T S i j k /\ (a < 0)%Qc /\
    is_vertex a b c t v /\ in_window (sample T i) (sample T j) (sample T k) t) <->
  (sample S i <= sample S j)%Qc /\ (sample S k < sample S j)%Qc.
Proof.
  intros HT HL K. destruct (triple_times T S i j k HT HL K) as [O1 O2].
  rewrite <- (vertex_max_rule _ _ _ (sample S i) (sample S j) (sample S k) O1 O2). reflexivity.
Qed.
Theorem parabol_rule_min T S i j k : increasing T -> length T = length S -> kept_triple S i j k ->
  (exists t v a b c, parabola_through a b c T S i j k /\
    in_window (sample T i) (sample T j) (sample T k) t /\ (0 < a)%Qc /\ is_vertex a b c t v) <->
  (sample S j <= sample S i)%Qc /\ (sample S j < sample S k)%Qc.
Proof.
  intros HT HL K. destruct (triple_times T S i j k HT HL K) as [O1 O2].
  rewrite <- (vertex_min_rule _ _ _ (sample S i) (sample S j) (sample S k) O1 O2). reflexivity.
Qed.

Theorem any_zeros m T S e : length T = length S -> find_extrema m T S = Ok e ->
  zincreasing (indzer e) /\
  (forall i, In i (indzer e) <->
    (0 <= i < zlen S - 1 /\ opposite (sample S i) (sample S (i + 1))) \/
    (exists a b, zero_run S a b /\ rounded_mid a b i)).
Proof.
  intros HL E. destruct m; [apply (simple_zeros T S e HL E)| |discriminate].
  assert (X : indzer e = zero_crossings S).
  { unfold find_extrema, find_extrema_parabol in E.
    destruct (py_get T 1); [|discriminate]. destruct (py_get T 0); [|discriminate]. cbn [bind] in E.
    destruct (py_take T _); [|discriminate]. destruct (py_take S _); [|discriminate]. cbn [bind] in E.
    injection E as <-. reflexivity. }
  rewrite X. apply zero_crossings_spec.
Qed.
