(** * EmdFlat: signals with too few extrema. *)
From Verif Require Import PyFacts QcFacts Emd Spec EmdProofs EmdControl EmdExact ExtremaProofs ExtremaSpec PrepareProofs EmdSimple.
From Coq Require Import ZifyBool ZifyNat QArith Qcanon.
Open Scope Z_scope.

Section Flat.
Variable spl : spline_oracle Qc.

(** A signal with at most two extrema is returned whole. *)
Lemma emd_few fuel c S T k t e : emd_time c S T = Ok t -> length t = length S -> S <> [] ->
  find_extrema (extrema_detection c) t S = Ok e -> zlen (max_pos e) + zlen (min_pos e) <= 2 ->
  2 <= MAX_ITERATION c -> (0 < fuel)%nat ->
  emd spl fuel c S T k = Ok (MkOut (if allclose0 S then [] else [S]) [] S).
Proof.
  intros Et HL HS Ee He HM Hf. unfold emd. rewrite Et. cbn [bind].
  replace (Nat.eqb (length S) (length t)) with true by (symmetry; apply Nat.eqb_eq; auto).
  cbn [negb]. destruct fuel as [|fuel]; [lia|]. cbn [emd_loop].
  change (sum_rows (length S) []) with (@vzeros Qc _ (length S)). rewrite vsub_zeros.
  assert (Es : sift spl (sift_fuel c) c t 0 0 (-1) S = Ok (S, ext_no e, true)).
  { unfold sift_fuel. cbn [sift]. replace (MAX_ITERATION c <=? 0 + 1) with false by lia.
    rewrite Ee. cbn [bind]. unfold ext_no at 1. replace (2 <? _) with false by lia. reflexivity. }
  rewrite Es. cbn [bind app].
  assert (Ec : exists b, end_condition c S [S] = Ok b).
  { unfold end_condition.
    assert (Hne : vsub S (sum_rows (length S) [S]) <> []).
    { intros X. apply (f_equal (@length _)) in X. rewrite vsub_length in X.
      - destruct S; [congruence|discriminate].
      - rewrite sum_rows_length; auto. intros r [<-|[]]. auto. }
    destruct (np_max_ok _ Hne) as (mx & ->). destruct (np_min_ok _ Hne) as (mn & ->). cbn [bind].
    destruct (nltb _ _); eauto. destruct (nltb _ _); eauto. }
  destruct Ec as (b & ->). cbn [bind].
  assert (Ef : emd_finish S [S] (ext_no e) = MkOut (if allclose0 S then [] else [S]) [] S).
  { unfold emd_finish. unfold ext_no. replace (_ <=? 2) with true by lia. cbn [removelast].
    change (sum_rows (length S) []) with (@vzeros Qc _ (length S)). rewrite vsub_zeros. reflexivity. }
  destruct (b || _); cbn [bind]; rewrite Ef; reflexivity.
Qed.

Lemma flat_ends S a b : a <= b -> flat S a b -> sample S b = sample S a.
Proof. intros H F. apply F. lia. Qed.

(** A monotone signal has no reported extrema. *)
Lemma monotone_none S i : monotone S -> ~ reported_max S i /\ ~ reported_min S i.
Proof.
  intros Hm.
  assert (X : forall a b, 0 < a <= b -> b < Z.of_nat (length S) - 1 -> flat S a b ->
    ~ ((sample S (a - 1) < sample S a)%Qc /\ (sample S (b + 1) < sample S b)%Qc) /\
    ~ ((sample S a < sample S (a - 1))%Qc /\ (sample S b < sample S (b + 1))%Qc)).
  { intros a b H1 H2 Hf. destruct Hm as [Hm|Hm];
      pose proof (Hm (a - 1) ltac:(lia)) as P1; pose proof (Hm b ltac:(lia)) as P2;
      replace (a - 1 + 1) with a in P1 by lia; split; intros [Q1 Q2]; qclra. }
  assert (Y : forall b, 0 < b < Z.of_nat (length S) - 1 -> ~ start_max S b /\ ~ start_min S b).
  { intros b Hb. destruct Hm as [Hm|Hm]; pose proof (Hm b ltac:(lia)) as P1;
      pose proof (Hm (Z.of_nat (length S) - 2) ltac:(lia)) as P2;
      replace (Z.of_nat (length S) - 2 + 1) with (Z.of_nat (length S) - 1) in P2 by lia;
      split; intros (_ & _ & Q1 & Q2); qclra. }
  split; intros [(a & b & (H1 & H2 & Hf & Q1 & Q2) & _)|(b & Hb & _)].
  - destruct (X a b H1 H2 Hf) as [X1 _]. auto.
  - destruct (Y b) as [Y1 _]; [destruct Hb; auto|auto].
  - destruct (X a b H1 H2 Hf) as [_ X1]. auto.
  - destruct (Y b) as [_ Y1]; [destruct Hb; auto|auto].
Qed.

Lemma emd_monotone fuel c S T k : extrema_detection c = Simple -> monotone S ->
  (2 <= length S)%nat -> (forall t, T = Some t -> length t = length S) ->
  2 <= MAX_ITERATION c -> (0 < fuel)%nat ->
  emd spl fuel c S T k = Ok (MkOut (if allclose0 S then [] else [S]) [] S).
Proof.
  intros Hd Hm HS HT HM Hf.
  pose proof (simple_time c Hd S T HS HT) as Et.
  assert (HLt : length (tz (length S)) = length S) by (unfold tz; rewrite map_length, zseq_length; auto).
  destruct (simple_plateau (tz (length S)) S HLt) as (e & M & m & Ee & E1 & _ & E2 & _ & _ & _ & I1 & I2).
  assert (M = []) by (destruct M as [|i M]; auto; exfalso; apply (proj1 (monotone_none S i Hm)), I1; left; auto).
  assert (m = []) by (destruct m as [|i m]; auto; exfalso; apply (proj2 (monotone_none S i Hm)), I2; left; auto).
  subst M m. eapply emd_few with (e := e); eauto.
  - destruct S; [simpl in HS; lia|discriminate].
  - rewrite Hd. exact Ee.
  - rewrite E1, E2. cbn. lia.
Qed.

(** A constant signal, in either mode. *)
Lemma mask_false {X} (l : list X) m : (forall b, In b m -> b = false) -> mask l m = [].
Proof.
  revert m. induction l as [|x l IH]; intros [|b m] Hb; auto. cbn [mask].
  rewrite (Hb b (or_introl eq_refl)). apply IH. intros b' Hb'. apply Hb. right. auto.
Qed.
Lemma map3_const (f : Qc -> Qc -> Qc -> bool) v a b c :
  (forall x, In x a -> x = v) -> (forall x, In x b -> x = v) -> (forall x, In x c -> x = v) ->
  f v v v = false -> forall y, In y (map3 f a b c) -> y = false.
Proof.
  intros Ha Hb Hc Hf. revert b c Hb Hc. induction a as [|x a IH]; intros [|y b] [|z c] Hb Hc w Hw; cbn in Hw; try tauto.
  destruct Hw as [<-|Hw].
  - rewrite (Ha x), (Hb y), (Hc z) by (left; auto). auto.
  - exact (IH (fun u Hu => Ha u (or_intror Hu)) b c (fun u Hu => Hb u (or_intror Hu)) (fun u Hu => Hc u (or_intror Hu)) w Hw).
Qed.
Lemma In_tl {X} (x : X) l : In x (tl l) -> In x l.
Proof. destruct l; [auto|intros Hx; right; auto]. Qed.
Lemma py_get_ok {X} (l : list X) i : 0 <= i < zlen l -> exists x, py_get l i = Ok x.
Proof.
  intros Hi. destruct l as [|d l]; [cbn in Hi; lia|]. exists (nth (Z.to_nat i) (d :: l) d).
  apply py_get_nonneg. auto.
Qed.

Lemma nth_repeat_lt {X} i n (v d : X) : (i < n)%nat -> nth i (repeat v n) d = v.
Proof. intros Hi. rewrite nth_indep with (d' := v) by (rewrite repeat_length; auto). apply nth_repeat. Qed.

Lemma constant_find m T v n : m <> OtherDetection -> length T = n -> (2 <= n)%nat ->
  exists e, find_extrema m T (repeat v n) = Ok e /\ max_pos e = [] /\ min_pos e = [].
Proof.
  intros Hm HT Hn. destruct m; [| |congruence].
  - destruct (simple_plateau T (repeat v n)) as (e & M & m & Ee & E1 & _ & E2 & _ & _ & _ & I1 & I2);
      [rewrite repeat_length; auto|].
    assert (Hmo : monotone (repeat v n)).
    { left. intros i Hi. unfold sample. rewrite repeat_length in Hi. rewrite !nth_repeat_lt by lia.
      apply Qcle_refl. }
    assert (M = []) by (destruct M as [|i M]; auto; exfalso; apply (proj1 (monotone_none _ i Hmo)), I1; left; auto).
    assert (m = []) by (destruct m as [|i m]; auto; exfalso; apply (proj2 (monotone_none _ i Hmo)), I2; left; auto).
    subst. exists e. auto.
  - cbn [find_extrema]. unfold find_extrema_parabol.
    assert (Hrep : forall x, In x (repeat v n) -> x = v) by (intros x Hx; apply repeat_spec in Hx; auto).
    assert (En : not_duplicate (repeat v n) = [0; zlen (repeat v n) - 1]).
    { unfold not_duplicate. rewrite mask_false; [reflexivity|].
      apply (map3_const _ v); auto.
      - intros x Hx. apply Hrep, In_tl. auto.
      - intros x Hx. apply Hrep, In_tl, In_tl. auto.
      - cbn. assert (E : Qc_eqb v v = true) by (apply Qc_eqb_eq; auto).
        change (negb (Qc_eqb v v && Qc_eqb v v) = false). rewrite E. reflexivity. }
    rewrite En. unfold zlen. rewrite repeat_length.
    destruct (py_get_ok T 1 ltac:(unfold zlen; lia)) as (t1 & ->). cbn [bind].
    destruct (py_get_ok T 0 ltac:(unfold zlen; lia)) as (t0 & Et0). rewrite Et0. cbn [bind].
    destruct (py_get_ok T (Z.of_nat n - 1) ltac:(unfold zlen; lia)) as (t2 & Et2).
    destruct (py_get_ok (repeat v n) 0 ltac:(unfold zlen; rewrite repeat_length; lia)) as (s0 & Es0).
    destruct (py_get_ok (repeat v n) (Z.of_nat n - 1) ltac:(unfold zlen; rewrite repeat_length; lia)) as (s2 & Es2).
    unfold py_take. cbn [mapM]. rewrite Et0, Et2, Es0, Es2. cbn [bind].
    eexists. split; [reflexivity|]. split; reflexivity.
Qed.

Lemma emd_constant fuel c v n T k t : extrema_detection c <> OtherDetection ->
  (2 <= n)%nat -> emd_time c (repeat v n) T = Ok t -> length t = n ->
  2 <= MAX_ITERATION c -> (0 < fuel)%nat ->
  emd spl fuel c (repeat v n) T k = Ok (MkOut (if allclose0 (repeat v n) then [] else [repeat v n]) [] (repeat v n)).
Proof.
  intros Hd Hn Et HL HM Hf.
  destruct (constant_find (extrema_detection c) t v n Hd HL Hn) as (e & Ee & E1 & E2).
  eapply emd_few with (e := e); eauto.
  - rewrite repeat_length. auto.
  - destruct n; [lia|discriminate].
  - rewrite E1, E2. cbn. lia.
Qed.

(** The same with the rows spelled out. *)
Lemma rows_of S : exists o, MkOut (if allclose0 S then [] else [S]) [] S = o /\ imfs o = [] /\ residue o = S /\
  (negligible S -> out o = []) /\ (~ negligible S -> out o = [S]).
Proof.
  eexists. split; [reflexivity|]. cbn [imfs residue out]. split; auto. split; auto.
  destruct (allclose0 S) eqn:E; split; intros Hn; auto.
  - apply negligible_iff in E. tauto.
  - apply negligible_iff in Hn. congruence.
Qed.
Lemma emd_few_rows fuel c S T k t e : emd_time c S T = Ok t -> length t = length S -> S <> [] ->
  find_extrema (extrema_detection c) t S = Ok e -> zlen (max_pos e) + zlen (min_pos e) <= 2 ->
  2 <= MAX_ITERATION c -> (0 < fuel)%nat ->
  exists o, emd spl fuel c S T k = Ok o /\ imfs o = [] /\ residue o = S /\
    (negligible S -> out o = []) /\ (~ negligible S -> out o = [S]).
Proof.
  intros H1 H2 H3 H4 H5 H6 H7. rewrite (emd_few fuel c S T k t e H1 H2 H3 H4 H5 H6 H7).
  destruct (rows_of S) as (o & <- & Ho). eexists. split; [reflexivity|exact Ho].
Qed.
Lemma emd_monotone_rows fuel c S T k : extrema_detection c = Simple -> monotone S ->
  (2 <= length S)%nat -> (forall t, T = Some t -> length t = length S) ->
  2 <= MAX_ITERATION c -> (0 < fuel)%nat ->
  exists o, emd spl fuel c S T k = Ok o /\ imfs o = [] /\ residue o = S /\
    (negligible S -> out o = []) /\ (~ negligible S -> out o = [S]).
Proof.
  intros. rewrite emd_monotone by auto. destruct (rows_of S) as (o & <- & Ho). eexists. split; [reflexivity|exact Ho].
Qed.
Lemma emd_constant_rows fuel c v n T k t : extrema_detection c <> OtherDetection ->
  (2 <= n)%nat -> emd_time c (repeat v n) T = Ok t -> length t = n ->
  2 <= MAX_ITERATION c -> (0 < fuel)%nat ->
  exists o, emd spl fuel c (repeat v n) T k = Ok o /\ imfs o = [] /\ residue o = repeat v n /\
    (within tol v -> out o = []) /\ (~ within tol v -> out o = [repeat v n]).
Proof.
  intros. rewrite emd_constant with (t := t) by auto.
  destruct (rows_of (repeat v n)) as (o & <- & H6 & H7 & H8 & H9). eexists. split; [reflexivity|].
  split; auto. split; auto. split; intros Hv.
  - apply H8. apply Forall_forall. intros x Hx. apply repeat_spec in Hx. subst. auto.
  - apply H9. intros Hn. apply Hv. destruct n; [lia|]. inversion Hn. auto.
Qed.
End Flat.
