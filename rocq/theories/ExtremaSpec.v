(** * ExtremaSpec: extrema in terms of hills and valleys; alternation; zero crossings. *)
From Verif Require Import PyFacts QcFacts Extrema Spec Runs EmdExact EmdStop ExtremaProofs.
From Coq Require Import ZifyBool ZifyNat.

Lemma flat_sgn S a b : a <= b ->
  ((forall k, a <= k < b -> sgn S k = 0) <-> flat S a b).
Proof.
  intros Hab. split.
  - intros Hz k Hk. replace k with (a + Z.of_nat (Z.to_nat (k - a))) by lia.
    assert (Hle : a + Z.of_nat (Z.to_nat (k - a)) <= b) by lia. revert Hle.
    induction (Z.to_nat (k - a)) as [|j IH]; intros Hle.
    + f_equal. lia.
    + rewrite <- IH by lia. specialize (Hz (a + Z.of_nat j) ltac:(lia)). apply sgn_zero in Hz.
      rewrite <- Hz. f_equal. lia.
  - intros Hf k Hk. apply sgn_zero. rewrite (Hf k), (Hf (k + 1)) by lia. reflexivity.
Qed.

(** ** Characterisation of reported maxima and minima *)
Lemma mid_iff a b i : i = round_half (b + a) <-> rounded_mid a b i.
Proof.
  rewrite Z.add_comm. split.
  - intros ->. apply round_half_spec.
  - intros Hm. eapply rounded_mid_unique; eauto. apply round_half_spec.
Qed.

Lemma rep_max_iff S i : rep S 1 i <-> reported_max S i.
Proof.
  unfold rep, reported_max, hill, start_max. fold (zlen S). split.
  - intros (a & b & Hab & Hz & Hb & E & Hc). apply mid_iff in E.
    rewrite flat_sgn in Hz by lia. apply sgn_neg in Hb.
    destruct Hc as [(-> & Ha & Hc)|[(Hlt & Ha & Hc)|(-> & Hlt & Hc)]].
    + apply sgn_pos in Hc. rewrite Z.sub_add in Hc.
      left. exists b, b. split; [|split; auto]. repeat split; auto; lia.
    + apply sgn_pos in Hc. rewrite Z.sub_add in Hc.
      left. exists a, b. split; [|split; auto]. repeat split; auto; lia.
    + apply sgn_pos in Hc. replace (zlen S - 2 + 1) with (zlen S - 1) in Hc by lia.
      right. exists b. split; auto. repeat split; auto; lia.
  - intros [(a & b & (H1 & H2 & H3 & H4 & H5) & Hd & E)|(b & (H1 & H2 & H3 & H4) & E)].
    + exists a, b. split; [lia|]. split; [apply flat_sgn; auto; lia|].
      split; [apply sgn_neg; auto|]. split; [apply mid_iff; auto|].
      assert (sgn S (a - 1) = 1) by (apply sgn_pos; rewrite Z.sub_add; auto).
      destruct (Z.eq_dec a b); [left; auto with zarith|right; left]. repeat split; auto; lia.
    + exists 0, b. split; [lia|]. split; [apply flat_sgn; auto; lia|].
      split; [apply sgn_neg; auto|]. split; [apply mid_iff; auto|].
      right. right. split; auto. split; [lia|]. apply sgn_pos.
      replace (zlen S - 2 + 1) with (zlen S - 1) by lia. auto.
Qed.
Lemma rep_min_iff S i : rep S (-1) i <-> reported_min S i.
Proof.
  unfold rep, reported_min, valley, start_min. fold (zlen S). change (- (-1)) with 1. split.
  - intros (a & b & Hab & Hz & Hb & E & Hc). apply mid_iff in E.
    rewrite flat_sgn in Hz by lia. apply sgn_pos in Hb.
    destruct Hc as [(-> & Ha & Hc)|[(Hlt & Ha & Hc)|(-> & Hlt & Hc)]].
    + apply sgn_neg in Hc. rewrite Z.sub_add in Hc.
      left. exists b, b. split; [|split; auto]. repeat split; auto; lia.
    + apply sgn_neg in Hc. rewrite Z.sub_add in Hc.
      left. exists a, b. split; [|split; auto]. repeat split; auto; lia.
    + apply sgn_neg in Hc. replace (zlen S - 2 + 1) with (zlen S - 1) in Hc by lia.
      right. exists b. split; auto. repeat split; auto; lia.
  - intros [(a & b & (H1 & H2 & H3 & H4 & H5) & Hd & E)|(b & (H1 & H2 & H3 & H4) & E)].
    + exists a, b. split; [lia|]. split; [apply flat_sgn; auto; lia|].
      split; [apply sgn_pos; auto|]. split; [apply mid_iff; auto|].
      assert (sgn S (a - 1) = -1) by (apply sgn_neg; rewrite Z.sub_add; auto).
      destruct (Z.eq_dec a b); [left; auto with zarith|right; left]. repeat split; auto; lia.
    + exists 0, b. split; [lia|]. split; [apply flat_sgn; auto; lia|].
      split; [apply sgn_pos; auto|]. split; [apply mid_iff; auto|].
      right. right. split; auto. split; [lia|]. apply sgn_neg.
      replace (zlen S - 2 + 1) with (zlen S - 1) by lia. auto.
Qed.

Lemma rep_range S s i : rep S s i -> 0 <= i <= zlen S - 2.
Proof.
  intros (a & b & Hab & _ & _ & E & Hc). rewrite Z.add_comm in E.
  pose proof (round_half_bounds a b ltac:(lia)). lia.
Qed.

(** find_extrema on the whole result. *)
Definition picks (l : list Qc) (idx : list Z) (r : list Qc) : Prop :=
  r = map (sample l) idx.
Lemma take_sample (l : list Qc) idx :
  (forall i, In i idx -> 0 <= i < zlen l) -> py_take l idx = Ok (map (sample l) idx).
Proof.
  intros Hi. apply mapM_map_ok. intros i Hx. apply py_get_nonneg. auto.
Qed.

Lemma find_extrema_simple_spec T S :
  length T = length S ->
  exists e M m, find_extrema_simple T S = Ok e /\
    max_pos e = map (sample T) M /\ max_val e = map (sample S) M /\
    min_pos e = map (sample T) m /\ min_val e = map (sample S) m /\
    indzer e = zero_crossings S /\
    zincreasing M /\ zincreasing m /\
    (forall i, In i M <-> rep S 1 i) /\ (forall i, In i m <-> rep S (-1) i).
Proof.
  intros HL. destruct (extrema_idx_spec S) as (M & m & E & I1 & I2 & HM & Hm).
  assert (RM : forall i, In i M -> 0 <= i < zlen S).
  { intros i Hi. apply HM, rep_range in Hi. lia. }
  assert (Rm : forall i, In i m -> 0 <= i < zlen S).
  { intros i Hi. apply Hm, rep_range in Hi. lia. }
  assert (zlen T = zlen S) by (unfold zlen; lia).
  unfold find_extrema_simple. rewrite E. cbn [bind].
  rewrite !take_sample by (intros; rewrite ?H; auto). cbn [bind].
  eexists _, M, m. split; [reflexivity|]. cbn. repeat (split; auto); apply HM || apply Hm.
Qed.

(** ** Alternation *)
Lemma first_sign S s p0 p1 : p0 <= p1 -> sgn S p1 = s ->
  exists p, p0 <= p <= p1 /\ sgn S p = s /\ forall k, p0 <= k < p -> sgn S k <> s.
Proof.
  intros Hle Hs. remember (Z.to_nat (p1 - p0)) as j eqn:Ej. revert p0 Hle Ej.
  induction j as [|j IH]; intros p0 Hle Ej.
  - exists p1. split; [lia|]. split; auto. intros; lia.
  - destruct (Z.eq_dec (sgn S p0) s) as [E|E].
    + exists p0. split; [lia|]. split; auto. intros; lia.
    + destruct (IH (p0 + 1) ltac:(lia) ltac:(lia)) as (p & P1 & P2 & P3).
      exists p. split; [lia|]. split; auto. intros k Hk.
      destruct (Z.eq_dec k p0); [subst; auto|]. apply P3. lia.
Qed.
Lemma last_nonzero S q0 p : q0 < p -> sgn S q0 <> 0 ->
  exists q, q0 <= q < p /\ sgn S q <> 0 /\ forall k, q < k < p -> sgn S k = 0.
Proof.
  intros Hlt Hn. remember (Z.to_nat (p - 1 - q0)) as j eqn:Ej. revert p Hlt Ej.
  induction j as [|j IH]; intros p Hlt Ej.
  - exists q0. split; [lia|]. split; auto. intros; lia.
  - destruct (Z.eq_dec (sgn S (p - 1)) 0) as [E|E].
    + destruct (IH (p - 1) ltac:(lia) ltac:(lia)) as (q & Q1 & Q2 & Q3).
      exists q. split; [lia|]. split; auto. intros k Hk.
      destruct (Z.eq_dec k (p - 1)); [subst; auto|]. apply Q3. lia.
    + exists (p - 1). split; [lia|]. split; auto. intros; lia.
Qed.
Lemma sgn_range S i : sgn S i = 1 \/ sgn S i = -1 \/ sgn S i = 0.
Proof. destruct (sgn_cases S i) as [[E _]|[[E _]|[E _]]]; auto. Qed.

(** Between a step of sign [-s] at [b >= 1] and a later step of sign [s] there is a
    reported extremum of the opposite kind. *)
Lemma turn S s b c : s = 1 \/ s = -1 ->
  1 <= b < c -> c <= zlen S - 2 -> sgn S b = - s -> sgn S c = s ->
  exists i, rep S (- s) i /\ b < i <= c.
Proof.
  intros Hs Hbc Hc Eb Ec.
  destruct (first_sign S s b c ltac:(lia) Ec) as (p & P1 & P2 & P3).
  assert (b < p). { destruct (Z.eq_dec p b); [subst; lia|lia]. }
  destruct (last_nonzero S b p ltac:(lia) ltac:(lia)) as (q & Q1 & Q2 & Q3).
  assert (Eq : sgn S q = - s).
  { specialize (P3 q ltac:(lia)). destruct (sgn_range S q) as [E|[E|E]]; lia. }
  exists (round_half (p + (q + 1))).
  pose proof (round_half_bounds (q + 1) p ltac:(lia)) as Hr. rewrite (Z.add_comm (q + 1) p) in Hr.
  split; [|lia].
  exists (q + 1), p. split; [lia|]. split; [intros k Hk; apply Q3; lia|].
  split; [lia|]. split; [f_equal; lia|].
  replace (q + 1 - 1) with q by lia.
  destruct (Z.eq_dec (q + 1) p); [left|right; left]; repeat split; auto; lia.
Qed.

Lemma rep_order S s i j : s = 1 \/ s = -1 -> rep S s i -> rep S s j -> i < j ->
  exists b c, 1 <= b < c /\ c <= zlen S - 2 /\ sgn S b = - s /\ sgn S c = s /\ i <= b /\ c < j.
Proof.
  intros Hs (a & b & Hab & Hz & Hb & E & Hc) (a' & b' & Hab' & Hz' & Hb' & E' & Hc') Hij.
  pose proof (round_half_bounds a b ltac:(lia)) as R. rewrite Z.add_comm, <- E in R.
  pose proof (round_half_bounds a' b' ltac:(lia)) as R'. rewrite Z.add_comm, <- E' in R'.
  (* the stretches are disjoint and ordered *)
  assert (b < a').
  { destruct (Z_lt_le_dec b a') as [|D]; auto. exfalso.
    assert (Hbb : b = b').
    { destruct (Z.lt_trichotomy b b') as [L|[L|L]]; auto.
      - rewrite Hz' in Hb by lia. lia.
      - rewrite Hz in Hb' by lia. lia. }
    subst b'.
    assert (Haa : a = a').
    { destruct (Z.lt_trichotomy a a') as [L|[L|L]]; auto.
      - destruct Hc' as [(? & ? & X)|[(? & ? & X)|(? & ? & X)]]; try lia;
          rewrite Hz in X by lia; lia.
      - destruct Hc as [(? & ? & X)|[(? & ? & X)|(? & ? & X)]]; try lia;
          rewrite Hz' in X by lia; lia. }
    subst a'. lia. }
  exists b, (a' - 1). 
  assert (sgn S (a' - 1) = s) by (destruct Hc' as [(? & ? & X)|[(? & ? & X)|(? & ? & X)]]; auto; lia).
  assert (b <> a' - 1) by (intros ->; lia).
  split; [lia|]. split; [lia|]. split; auto. split; auto. lia.
Qed.

Lemma alternate S s i j : s = 1 \/ s = -1 -> rep S s i -> rep S s j -> i < j ->
  exists k, rep S (- s) k /\ i < k < j.
Proof.
  intros Hs Hi Hj Hij.
  destruct (rep_order S s i j Hs Hi Hj Hij) as (b & c & H1 & H2 & H3 & H4 & H5 & H6).
  destruct (turn S s b c Hs H1 H2 H3 H4) as (k & K1 & K2). exists k. split; auto. lia.
Qed.

Lemma rep_disjoint S i : rep S 1 i -> rep S (-1) i -> False.
Proof.
  intros (a & b & Hab & Hz & Hb & E & Hc) (a' & b' & Hab' & Hz' & Hb' & E' & Hc').
  pose proof (round_half_bounds a b ltac:(lia)) as R. rewrite Z.add_comm, <- E in R.
  pose proof (round_half_bounds a' b' ltac:(lia)) as R'. rewrite Z.add_comm, <- E' in R'.
  change (- (-1)) with 1 in Hb'.
  destruct (Z.lt_trichotomy b b') as [L|[L|L]].
  - (* b inside [a', b') *) rewrite Hz' in Hb by lia. lia.
  - subst. lia.
  - rewrite Hz in Hb' by lia. lia.
Qed.

(** Counting: two increasing lists that separate each other differ in length by at most 1. *)
Lemma interleave_count (M m : list Z) :
  zincreasing M -> zincreasing m ->
  (forall i j, In i M -> In j M -> i < j -> exists k, In k m /\ i < k < j) ->
  (length M <= length m + 1)%nat.
Proof.
  revert m. induction M as [|x M IH]; intros m HM Hm Hsep; simpl; [lia|].
  destruct M as [|y M]; simpl; [lia|].
  destruct (Hsep x y) as (k & Hk & Hxk); simpl; auto.
  { destruct HM as [HM _]. apply HM. left. auto. }
  assert (Hsplit : exists m1 m2, m = m1 ++ k :: m2) by (apply in_split; auto).
  destruct Hsplit as (m1 & m2 & ->).
  assert (Hm2 : zincreasing m2 /\ forall z, In z m1 -> z < k).
  { clear - Hm. induction m1 as [|z m1 IH]; simpl in *.
    - destruct Hm. split; auto. intros z [].
    - destruct Hm as [H1 H2]. destruct (IH H2) as [I1 I2]. split; auto.
      intros w [<-|Hw]; auto. apply H1. apply in_or_app. right. left. auto. }
  destruct Hm2 as [Hm2 Hlt].
  assert (length (y :: M) <= length m2 + 1)%nat.
  { apply IH; [destruct HM; auto|auto|].
    intros i j Hi Hj Hij. destruct (Hsep i j) as (k' & Hk' & Hik); simpl; auto.
    exists k'. split; auto. apply in_app_or in Hk' as [Hk'|[Hk'|Hk']]; auto; exfalso.
    - apply Hlt in Hk'. assert (y <= i). { destruct Hi as [->|Hi]; [lia|].
        destruct HM as [_ [HM _]]. apply HM in Hi. lia. } lia.
    - subst. assert (y <= i). { destruct Hi as [->|Hi]; [lia|].
        destruct HM as [_ [HM _]]. apply HM in Hi. lia. } lia. }
  rewrite app_length. simpl in *. lia.
Qed.

(** ** Zero crossings *)

Lemma zmask_zero S i :
  zmask (map is0 S) i = true <-> 0 <= i < zlen S /\ sample S i = 0%Qc.
Proof.
  rewrite zmask_true, zlen_map. split.
  - intros [Hi E]. split; auto. rewrite nth_error_map in E. unfold sample.
    destruct (nth_error S (Z.to_nat i)) eqn:E1; [|discriminate].
    rewrite (nth_error_nth _ _ _ E1). injection E as E. unfold is0 in E. num_qc. qc_bool. auto.
  - intros [Hi E]. split; auto. rewrite nth_error_map. unfold sample in E.
    rewrite (nth_error_nth' _ 0%Qc) by (unfold zlen in Hi; lia). simpl. f_equal.
    unfold is0. num_qc. qc_bool. auto.
Qed.
Lemma zero_run_isrun S a b : isrun (zmask (map is0 S)) a (b + 1) <-> zero_run S a b.
Proof.
  assert (M : forall i, zmask (map is0 S) i = false <-> ~ (0 <= i < zlen S /\ sample S i = 0%Qc)).
  { intros i. rewrite <- zmask_zero. destruct (zmask _ i); split; congruence. }
  unfold zero_run. fold (zlen S). split.
  - intros R. pose proof (isrun_bounds _ _ _ R) as Hb. rewrite zlen_map in Hb.
    destruct R as (R1 & R2 & R3 & R4). rewrite M in R3, R4.
    split; [lia|]. split; [lia|]. split; [|split].
    + intros k Hk. specialize (R2 k ltac:(lia)). apply zmask_zero in R2. tauto.
    + destruct (Z.eq_dec a 0); auto. right. intros E. apply R3. split; auto. lia.
    + destruct (Z.eq_dec b (zlen S - 1)); auto. right. intros E. apply R4. split; auto. lia.
  - intros (H1 & H2 & H3 & H4 & H5). split; [lia|]. split; [|split].
    + intros j Hj. apply zmask_zero. split; [lia|]. apply H3. lia.
    + apply M. intros [? E]. destruct H4; [lia|contradiction].
    + apply M. intros [? E]. destruct H5; [lia|contradiction].
Qed.

Lemma adj_crossing S i :
  In i (nonzero (adj (fun a b => nltb (nmul a b) n0) S)) <->
  0 <= i < zlen S - 1 /\ opposite (sample S i) (sample S (i + 1)).
Proof.
  rewrite nonzero_In, nth_error_adj. unfold sample, opposite. split.
  - intros [Hi E]. destruct (nth_error S (Z.to_nat i)) eqn:E1; [|discriminate].
    destruct (nth_error S (Datatypes.S (Z.to_nat i))) eqn:E2; [|discriminate].
    assert (Datatypes.S (Z.to_nat i) < length S)%nat by (apply nth_error_Some; congruence).
    split; [unfold zlen; lia|].
    replace (Z.to_nat (i + 1)) with (Datatypes.S (Z.to_nat i)) by lia.
    rewrite (nth_error_nth _ _ _ E1), (nth_error_nth _ _ _ E2). injection E as E. num_qc. qc_bool.
    apply Qc_mul_neg. auto.
  - intros [Hi E]. split; [lia|]. unfold zlen in Hi.
    replace (Z.to_nat (i + 1)) with (Datatypes.S (Z.to_nat i)) in E by lia.
    rewrite !(nth_error_nth' _ 0%Qc) by lia. f_equal. num_qc. qc_bool. apply Qc_mul_neg. auto.
Qed.

Lemma zdiff_no1 l : zincreasing l -> existsb (Z.eqb 1) (zdiff l) = false ->
  forall x y, In x l -> In y l -> y <> x + 1.
Proof.
  induction l as [|a l IH]; intros Hi E x y Hx Hy; [destruct Hx|].
  destruct l as [|b l].
  - destruct Hx as [<-|[]]. destruct Hy as [<-|[]]. lia.
  - change (zdiff (a :: b :: l)) with ((b - a) :: zdiff (b :: l)) in E. cbn [existsb] in E.
    apply orb_false_iff in E as [E1 E2]. destruct Hi as [H1 H2].
    pose proof (H1 b (or_introl eq_refl)) as Hab.
    assert (Hge : forall z, In z (b :: l) -> b <= z).
    { intros z [<-|Hz]; [lia|]. destruct H2 as [H2 _]. apply H2 in Hz. lia. }
    destruct Hx as [<-|Hx]; destruct Hy as [<-|Hy]; try lia;
      try (apply Hge in Hy; lia); try (apply Hge in Hx; lia).
Qed.

Lemma zero_crossings_spec S :
  zincreasing (zero_crossings S) /\
  forall i, In i (zero_crossings S) <->
    (0 <= i < zlen S - 1 /\ opposite (sample S i) (sample S (i + 1))) \/
    (exists a b, zero_run S a b /\ rounded_mid a b i).
Proof.
  unfold zero_crossings. set (cr := nonzero (adj _ S)).
  assert (Hcr : zincreasing cr) by apply nonzero_increasing.
  assert (Icr : forall i, In i cr <-> 0 <= i < zlen S - 1 /\ opposite (sample S i) (sample S (i + 1)))
    by apply adj_crossing.
  destruct (existsb (fun b => b) (map is0 S)) eqn:Ez.
  - set (indz := nonzero (map is0 S)).
    set (mids := map2 (fun a b => round_half (a + b)) (run_starts (map is0 S))
                   (map (fun k => k - 1) (run_ends (map is0 S)))).
    set (zs := if existsb (Z.eqb 1) (zdiff indz) then mids else indz).
    assert (Em : mids = map (fun r => round_half (fst r + (snd r - 1))) (runs (map is0 S))).
    { unfold mids. rewrite run_starts_fst, run_ends_snd, map_map, map2_map_l, map2_map_r.
      induction (runs (map is0 S)); simpl; f_equal; auto. }
    assert (Hzs : zincreasing zs /\ forall i, In i zs <-> exists a b, zero_run S a b /\ rounded_mid a b i).
    { unfold zs. destruct (existsb (Z.eqb 1) (zdiff indz)) eqn:E1.
      - rewrite Em. destruct (runs_chain (map is0 S)) as [C B]. split.
        + clear - C B. induction (runs (map is0 S)) as [|[a b] l IH]; simpl; auto.
          destruct C as [C1 C2]. split; [|apply IH; auto with datatypes].
          intros y Hy. apply in_map_iff in Hy as ([a' b'] & <- & Hp).
          pose proof (C1 _ Hp) as L. unfold pair_lt in L. simpl in L |- *.
          pose proof (B (a, b) (or_introl eq_refl)). pose proof (B _ (or_intror Hp)). simpl in *.
          pose proof (round_half_bounds a (b - 1) ltac:(lia)).
          pose proof (round_half_bounds a' (b' - 1) ltac:(lia)). lia.
        + intros i. rewrite in_map_iff. split.
          * intros ([a b] & <- & Hr). apply runs_In in Hr. simpl. exists a, (b - 1).
            split; [|apply round_half_spec]. apply zero_run_isrun. rewrite Z.sub_add. auto.
          * intros (a & b & Hr & Hm). apply zero_run_isrun, runs_In in Hr. exists (a, b + 1).
            split; auto. simpl. rewrite Z.add_simpl_r. symmetry. eapply rounded_mid_unique; eauto.
            apply round_half_spec.
      - split; [apply nonzero_increasing|]. intros i.
        assert (Hin : forall j, In j indz <-> 0 <= j < zlen S /\ sample S j = 0%Qc).
        { intros j. unfold indz. rewrite nonzero_In, <- zmask_zero, zmask_true, zlen_map. 
          split; [|tauto]. intros [Hj E]. split; auto. split; auto.
          assert (Z.to_nat j < length (map is0 S))%nat by (apply nth_error_Some; congruence).
          rewrite map_length in H. unfold zlen. lia. }
        assert (Hno : forall j, In j indz -> ~ In (j + 1) indz).
        { intros j Hj Hj'. apply (zdiff_no1 indz (nonzero_increasing _) E1 j (j + 1)); auto. }
        split.
        + intros Hi. exists i, i. split; [|left; lia]. pose proof (Hno i Hi) as N1.
          assert (N2 : ~ In (i - 1) indz). { intros X. apply (Hno _ X). rewrite Z.sub_add. auto. }
          rewrite Hin in N1, N2. apply Hin in Hi as [Hi Ei].
          unfold zero_run. fold (zlen S). split; [lia|]. split; [lia|]. split; [|split].
          * intros k Hk. replace k with i by lia. auto.
          * destruct (Z.eq_dec i 0); auto. right. intros X. apply N2. split; auto. lia.
          * destruct (Z.eq_dec i (zlen S - 1)); auto. right. intros X. apply N1. split; auto. lia.
        + intros (a & b & (H1 & H2 & H3 & H4 & H5) & Hm). fold (zlen S) in *.
          assert (a = b).
          { destruct (Z.eq_dec a b); auto. exfalso. apply (Hno a); apply Hin.
            - split; [lia|]. apply H3. lia.
            - split; [lia|]. apply H3. lia. }
          subst b. apply rounded_mid_bounds in Hm; [|lia]. assert (i = a) by lia. subst i.
          apply Hin. split; [lia|]. apply H3. lia. }
    destruct Hzs as [Hz1 Hz2]. split.
    + apply zsort_increasing.
      assert (Hd : forall x, In x cr -> ~ In x zs).
      { intros x Hx Hx'. apply Icr in Hx as [_ Ho]. apply Hz2 in Hx' as (a & b & (H1 & _ & H3 & _) & Hm).
        apply rounded_mid_bounds in Hm; [|lia]. rewrite H3 in Ho by lia.
        unfold opposite in Ho. destruct Ho as [[? ?]|[? ?]]; qclra. }
      apply zincreasing_NoDup in Hcr. apply zincreasing_NoDup in Hz1.
      clear - Hcr Hz1 Hd. induction cr as [|x st IH]; simpl; auto.
      inversion Hcr; subst. constructor.
      * rewrite in_app_iff. intros [Hx|Hx]; auto. apply (Hd x); simpl; auto.
      * apply IH; auto. intros y Hy. apply Hd. simpl. auto.
    + intros i. rewrite zsort_In, in_app_iff, Icr, Hz2. reflexivity.
  - split; auto. intros i. rewrite Icr. split; auto. intros [Hx|(a & b & Hr & _)]; auto.
    exfalso. apply zero_run_isrun in Hr. destruct Hr as (R1 & R2 & _).
    specialize (R2 a ltac:(lia)). apply zmask_true in R2 as [_ R2]. apply nth_error_In in R2.
    rewrite existsb_false in Ez. apply Ez in R2. discriminate.
Qed.

(** ** Corollaries used in the property statements *)
Definition distinct_neighbours (S : list Qc) : Prop :=
  forall i, 0 <= i < zlen S - 1 -> sample S i <> sample S (i + 1).

Lemma strict_only S i : distinct_neighbours S ->
  (rep S 1 i <-> 0 < i < zlen S - 1 /\ (sample S (i - 1) < sample S i)%Qc /\ (sample S (i + 1) < sample S i)%Qc) /\
  (rep S (-1) i <-> 0 < i < zlen S - 1 /\ (sample S i < sample S (i - 1))%Qc /\ (sample S i < sample S (i + 1))%Qc).
Proof.
  intros Hd.
  assert (Hz : forall k, 0 <= k < zlen S - 1 -> sgn S k <> 0).
  { intros k Hk E. apply sgn_zero in E. apply (Hd k Hk). auto. }
  assert (G : forall s, s = 1 \/ s = -1 ->
    (rep S s i <-> 0 < i < zlen S - 1 /\ sgn S (i - 1) = s /\ sgn S i = - s)).
  { intros s Hs. split.
    - intros (a & b & Hab & Hf & Hb & E & Hc).
      destruct Hc as [(-> & Ha & Hc)|[(Hlt & Ha & Hc)|(-> & Hlt & Hc)]].
      + pose proof (round_half_bounds b b ltac:(lia)). replace i with b by lia. split; [lia|auto].
      + exfalso. apply (Hz a); [lia|]. apply Hf. lia.
      + exfalso. apply (Hz 0); [lia|]. apply Hf. lia.
    - intros (Hi & H1 & H2). exists i, i. split; [lia|]. split; [intros; lia|].
      split; auto. split; [|left; auto with zarith].
      pose proof (round_half_bounds i i ltac:(lia)). lia. }
  split.
  - rewrite (G 1) by auto. rewrite sgn_pos, Z.sub_add. change (- (1)) with (-1). rewrite sgn_neg. reflexivity.
  - rewrite (G (-1)) by auto. rewrite sgn_neg, Z.sub_add. change (- (-1)) with 1. rewrite sgn_pos. reflexivity.
Qed.

Lemma simple_strict T S :
  length T = length S -> distinct_neighbours S ->
  exists e M m, find_extrema Simple T S = Ok e /\
  max_pos e = map (sample T) M /\ max_val e = map (sample S) M /\
  min_pos e = map (sample T) m /\ min_val e = map (sample S) m /\
  zincreasing M /\ zincreasing m /\
  (forall i, In i M <-> 0 < i < zlen S - 1 /\
  (sample S (i - 1) < sample S i)%Qc /\ (sample S (i + 1) < sample S i)%Qc) /\
  (forall i, In i m <-> 0 < i < zlen S - 1 /\
  (sample S i < sample S (i - 1))%Qc /\ (sample S i < sample S (i + 1))%Qc).
Proof.
  intros HL Hd. destruct (find_extrema_simple_spec T S HL) as
    (e & M & m & E & E1 & E2 & E3 & E4 & _ & I1 & I2 & R1 & R2).
  exists e, M, m. repeat (split; [assumption|]). try split.
  - intros i. rewrite R1. apply strict_only; auto.
  - intros i. rewrite R2. apply strict_only; auto.
Qed.

Lemma simple_plateau T S :
  length T = length S ->
  exists e M m, find_extrema Simple T S = Ok e /\
  max_pos e = map (sample T) M /\ max_val e = map (sample S) M /\
  min_pos e = map (sample T) m /\ min_val e = map (sample S) m /\
  zincreasing M /\ zincreasing m /\
  (forall i, In i M <-> reported_max S i) /\ (forall i, In i m <-> reported_min S i).
Proof.
  intros HL. destruct (find_extrema_simple_spec T S HL) as
    (e & M & m & E & E1 & E2 & E3 & E4 & _ & I1 & I2 & R1 & R2).
  exists e, M, m. repeat (split; [assumption|]). try split.
  - intros i. rewrite R1. apply rep_max_iff.
  - intros i. rewrite R2. apply rep_min_iff.
Qed.

Lemma simple_plateau_interior T S :
  length T = length S -> sample S 0 <> sample S 1 -> sample S 1 <> sample S 2 ->
  exists e M m, find_extrema Simple T S = Ok e /\
  max_pos e = map (sample T) M /\ min_pos e = map (sample T) m /\
  zincreasing M /\ zincreasing m /\
  (forall i, In i M <-> exists a b, hill S a b /\ rounded_mid a b i) /\
  (forall i, In i m <-> exists a b, valley S a b /\ rounded_mid a b i).
Proof.
  intros HL H0 H1. destruct (simple_plateau T S HL) as
    (e & M & m & E & E1 & _ & E3 & _ & I1 & I2 & R1 & R2).
  exists e, M, m. repeat (split; [assumption|]). try split.
  - intros i. rewrite R1. unfold reported_max. split.
    + intros [(a & b & Hh & _ & Hm)|(b & (Hb & Hf & _) & _)]; [exists a, b; auto|].
      exfalso. apply H0. symmetry. apply Hf. lia.
    + intros (a & b & Hh & Hm). left. exists a, b. split; auto. split; auto.
      destruct Hh as (Ha & _ & Hf & _). destruct (Z.eq_dec a b); auto. right.
      destruct (Z.eq_dec a 1); [|lia]. subst. exfalso. apply H1. symmetry. apply Hf. lia.
  - intros i. rewrite R2. unfold reported_min. split.
    + intros [(a & b & Hh & _ & Hm)|(b & (Hb & Hf & _) & _)]; [exists a, b; auto|].
      exfalso. apply H0. symmetry. apply Hf. lia.
    + intros (a & b & Hh & Hm). left. exists a, b. split; auto. split; auto.
      destruct Hh as (Ha & _ & Hf & _). destruct (Z.eq_dec a b); auto. right.
      destruct (Z.eq_dec a 1); [|lia]. subst. exfalso. apply H1. symmetry. apply Hf. lia.
Qed.

Lemma simple_alternate T S :
  length T = length S ->
  exists e M m, find_extrema Simple T S = Ok e /\
  max_pos e = map (sample T) M /\ min_pos e = map (sample T) m /\
  zincreasing M /\ zincreasing m /\
  (forall i, In i M -> ~ In i m) /\
  (forall i j, In i M -> In j M -> i < j -> exists k, In k m /\ i < k < j) /\
  (forall i j, In i m -> In j m -> i < j -> exists k, In k M /\ i < k < j).
Proof.
  intros HL. destruct (find_extrema_simple_spec T S HL) as
    (e & M & m & E & E1 & E2 & E3 & E4 & _ & I1 & I2 & R1 & R2).
  exists e, M, m. repeat (split; [assumption|]). split; [|split].
  - intros i. rewrite R1, R2. intros H1 H2. exact (rep_disjoint S i H1 H2).
  - intros i j. rewrite !R1. intros Hi Hj Hij.
    destruct (alternate S 1 i j (or_introl eq_refl) Hi Hj Hij) as (k & Hk & Hb).
    exists k. rewrite R2. auto.
  - intros i j. rewrite !R2. intros Hi Hj Hij.
    destruct (alternate S (-1) i j (or_intror eq_refl) Hi Hj Hij) as (k & Hk & Hb).
    exists k. rewrite R1. auto.
Qed.

Lemma simple_counts T S e :
  length T = length S -> find_extrema Simple T S = Ok e ->
  Z.abs (zlen (max_pos e) - zlen (min_pos e)) <= 1 /\
  (2 < zlen (max_pos e) + zlen (min_pos e) -> 0 < zlen (max_pos e) /\ 0 < zlen (min_pos e)).
Proof.
  intros HL E. destruct (simple_alternate T S HL) as
    (e' & M & m & E' & E1 & E2 & I1 & I2 & _ & A1 & A2).
  rewrite E' in E. injection E as <-. rewrite E1, E2, !zlen_map. unfold zlen.
  pose proof (interleave_count M m I1 I2 A1). pose proof (interleave_count m M I2 I1 A2). lia.
Qed.

Lemma zero_run_unique S a b a' b' i :
  zero_run S a b -> rounded_mid a b i -> zero_run S a' b' -> rounded_mid a' b' i -> a = a' /\ b = b'.
Proof.
  intros R1 M1 R2 M2.
  assert (a <= i <= b). { apply rounded_mid_bounds; auto. destruct R1. lia. }
  assert (a' <= i <= b'). { apply rounded_mid_bounds; auto. destruct R2. lia. }
  apply zero_run_isrun in R1. apply zero_run_isrun in R2.
  destruct (Z.lt_trichotomy a a') as [L|[L|L]].
  - pose proof (isrun_disjoint _ _ _ _ _ R1 R2 L). lia.
  - subst. pose proof (isrun_same_start _ _ _ _ R1 R2). lia.
  - pose proof (isrun_disjoint _ _ _ _ _ R2 R1 L). lia.
Qed.

Lemma simple_zeros T S e :
  length T = length S -> find_extrema Simple T S = Ok e ->
  zincreasing (indzer e) /\
  (forall i, In i (indzer e) <->
    (0 <= i < zlen S - 1 /\ opposite (sample S i) (sample S (i + 1))) \/
    (exists a b, zero_run S a b /\ rounded_mid a b i)).
Proof.
  intros HL E. destruct (find_extrema_simple_spec T S HL) as
    (e' & M & m & E' & _ & _ & _ & _ & Z & _). change (find_extrema Simple T S) with (find_extrema_simple T S) in E.
  rewrite E' in E. injection E as <-. rewrite Z. apply zero_crossings_spec.
Qed.

Lemma crossing_not_zero S i a b :
  opposite (sample S i) (sample S (i + 1)) -> zero_run S a b -> rounded_mid a b i -> False.
Proof.
  intros Ho (H1 & _ & H3 & _) Hm. apply rounded_mid_bounds in Hm; [|lia]. rewrite H3 in Ho by lia.
  unfold opposite in Ho. destruct Ho as [[? ?]|[? ?]]; qclra.
Qed.
