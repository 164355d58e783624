(** * ReturnsMatlab: EMD_matlab on its default times never raises (C94). *)
From Verif Require Import PyFacts QcFacts Emd Matlab Spec MatlabSpec Runs EmdProofs EmdControl EmdExact EmdStop.
From Verif Require Import ExtremaProofs ExtremaSpec PrepareProofs EmdSimple MatlabProofs MatlabRun.
From Coq Require Import ZifyBool ZifyNat QArith Qcanon.
Open Scope Z_scope.

(** ** The additional minimum keeps maxima and minima alternating *)
Lemma extra_sgn S i : extra_min S i -> exists b, 0 < b <= zlen S - 2 /\ (forall k, 0 <= k < b -> sgn S k = 0) /\
  sgn S b = 1 /\ sgn S (zlen S - 2) = 0 /\ i = round_half (b + 0) /\ 0 <= i <= b.
Proof.
  intros H. assert (HS : S <> []).
  { intros ->. destruct H as (b & H & _). cbn in H. lia. }
  apply extra_iff in H as (b & H1 & H2 & H3 & H4 & H5); auto. exists b. do 5 (split; [assumption|]).
  pose proof (round_half_bounds 0 b ltac:(lia)). rewrite Z.add_comm in H5. lia.
Qed.
Lemma rep_after S s i b : rep S s i -> s <> 0 -> (forall k, 0 <= k < b -> sgn S k = 0) -> sgn S (zlen S - 2) = 0 -> 0 < b ->
  exists a, b <= a - 1 /\ a <= i /\ sgn S (a - 1) = s /\ a <= zlen S - 2.
Proof.
  intros (a & d & Hab & Hz & Hb & E & Hc) Hs HB HN H0.
  pose proof (round_half_bounds a d ltac:(lia)) as R. rewrite Z.add_comm, <- E in R.
  exists a. destruct Hc as [(-> & H1 & H2)|[(H1 & H2 & H3)|(H1 & H2 & H3)]]; [| |exfalso; congruence].
  - split; [|split; [lia|split; [auto|lia]]]. destruct (Z_lt_dec (d - 1) b) as [L|L]; [|lia]. exfalso. rewrite HB in H2 by lia. congruence.
  - split; [|split; [lia|split; [auto|lia]]]. destruct (Z_lt_dec (a - 1) b) as [L|L]; [|lia]. exfalso. rewrite HB in H3 by lia. congruence.
Qed.
Lemma m_detect_prepare S nb : 1 <= nb ->
  exists e M m, findExtrema (tz (length S)) S = Ok e /\
    max_pos e = map Qc_ofZ M /\ min_pos e = map Qc_ofZ m /\
    (2 < zlen M + zlen m ->
     exists P Q cl cr, preparePoints nb (tz (length S)) S e = Ok (P, Q) /\
       env_ok (length S) S M cl cr P /\ env_ok (length S) S m cl cr Q).
Proof.
  intros Hnb. destruct (findExtrema_spec (tz (length S)) S (tz_length _)) as
    (e & M & m & E & E1 & E2 & E3 & E4 & _ & I1 & I2 & R1 & R2).
  assert (R1' : forall i, In i M <-> rep S 1 i) by (intros i; rewrite R1; symmetry; apply rep_max_iff).
  assert (R2' : forall i, In i m <-> rep S (-1) i \/ extra_min S i) by (intros i; rewrite R2, rep_min_iff; reflexivity).
  clear R1 R2.
  assert (HrM : forall x, In x M -> 0 <= x < Z.of_nat (length S) - 1).
  { intros x Hx. apply R1', rep_range in Hx. unfold zlen in Hx. lia. }
  assert (Hrm : forall x, In x m -> 0 <= x < Z.of_nat (length S) - 1).
  { intros x Hx. apply R2' in Hx as [Hx|Hx]; [apply rep_range in Hx; unfold zlen in Hx; lia|].
    apply extra_sgn in Hx as (b & H1 & _ & _ & _ & _ & H2). unfold zlen in H1. lia. }
  assert (EM : max_pos e = map Qc_ofZ M) by (rewrite E1; apply map_sample_tz; intros x Hx; apply HrM in Hx; lia).
  assert (Em : min_pos e = map Qc_ofZ m) by (rewrite E3; apply map_sample_tz; intros x Hx; apply Hrm in Hx; lia).
  exists e, M, m. split; [exact E|]. split; [exact EM|]. split; [exact Em|]. intros H3.
  destruct (prepare_simple_ok (length S) S e M m nb) as (P & Q & cl & cr & EP & P1 & P2 & _); auto.
  - intros x. rewrite R1', R2'. intros Ha [Hb|Hb]; [exact (rep_disjoint S x Ha Hb)|].
    apply extra_sgn in Hb as (b & H1 & H2 & H4 & H5 & H6 & H7).
    destruct (rep_after S 1 x b Ha ltac:(lia) H2 H5 ltac:(lia)) as (a & A1 & A2 & _). lia.
  - intros i j. rewrite !R1'. intros Hi Hj Hij.
    destruct (alternate S 1 i j (or_introl eq_refl) Hi Hj Hij) as (k & Hk & Hb). exists k. rewrite R2'. auto.
  - intros i j. rewrite !R2'. intros [Hi|Hi] [Hj|Hj] Hij.
    + destruct (alternate S (-1) i j (or_intror eq_refl) Hi Hj Hij) as (k & Hk & Hb). exists k. rewrite R1'. auto.
    + exfalso. apply extra_sgn in Hj as (b & H1 & H2 & H4 & H5 & H6 & H7).
      destruct (rep_after S (-1) i b Hi ltac:(lia) H2 H5 ltac:(lia)) as (a & A1 & A2 & _). lia.
    + apply extra_sgn in Hi as (b & H1 & H2 & H4 & H5 & H6 & H7).
      destruct (rep_after S (-1) j b Hj ltac:(lia) H2 H5 ltac:(lia)) as (a & A1 & A2 & A3 & A4).
      assert (b <> a - 1) by (intros C; rewrite <- C in A3; lia).
      destruct (turn S (-1) b (a - 1) (or_intror eq_refl)) as (k & K1 & K2); [lia|lia|exact H4|exact A3|].
      exists k. rewrite R1'. split; [exact K1|lia].
    + exfalso. apply extra_sgn in Hi as (b & H1 & H2 & H4 & H5 & H6 & H7). apply extra_sgn in Hj as (b' & G1 & G2 & G4 & G5 & G6 & G7).
      assert (b = b'); [|subst; lia]. destruct (Z.lt_trichotomy b b') as [L|[L|L]]; auto; exfalso.
      * rewrite G2 in H4 by lia. lia.
      * rewrite H2 in G4 by lia. lia.
  - exists P, Q, cl, cr. split; [|auto]. rewrite <- EP.
    unfold preparePoints, prepare_points, prepare_points_simple. rewrite EM, Em, !lookup_tz, !trunc_ofZ; [reflexivity| |].
    + intros i Hi. apply HrM in Hi. lia.
    + intros i Hi. apply Hrm in Hi. lia.
Qed.

Section Run.
Variable spl : spline_oracle Qc.
Hypothesis Hspl : interpolates spl.
Variable c : m_config Qc.
Hypothesis Hnb : 1 <= m_nbsym c.
Hypothesis Hk0 : parse_kind (m_splineKind c) <> None.
Hypothesis Hk1 : parse_kind (m_splineKind c) <> Some Pchip.
Hypothesis Hk2 : parse_kind (m_splineKind c) <> Some CubicHermite.

Lemma m_find_ok S : exists e, findExtrema (tz (length S)) S = Ok e.
Proof. destruct (m_detect_prepare S 1 ltac:(lia)) as (e & M & m & E & _). eauto. Qed.
Lemma m_env_ok (S : list Qc) : exists r, extractMaxMinSpline spl c (tz (length S)) S = Ok r /\
  forall u l, r = Some (u, l) -> length u = length S /\ length l = length S.
Proof.
  unfold extractMaxMinSpline. destruct (m_detect_prepare S (m_nbsym c) Hnb) as (e & M & m & E & E1 & E2 & HP). rewrite E. cbn [bind].
  unfold ext_no. rewrite E1, E2, !zlen_map. destruct (Z.ltb_spec (zlen M + zlen m) 3) as [L|L].
  { eexists. split; [reflexivity|]. discriminate. }
  destruct (HP ltac:(lia)) as (P & Q & cl & cr & EP & P1 & P2). rewrite EP. cbn [bind].
  set (ec := MkCfg 0%Qc 0%Qc 0%Qc 0%Qc 0%Qc 1 (m_splineKind c) Simple 0 0 0).
  rewrite (kinds_same _ _ _ _ _ _ _ _ P1) by auto. rewrite (kinds_same _ _ _ _ _ _ _ _ P2) by auto.
  destruct (spline_ok spl Hspl ec Hk0 _ _ _ _ _ _ P1) as (u & U1 & U2). destruct (spline_ok spl Hspl ec Hk0 _ _ _ _ _ _ P2) as (l & L1 & L2).
  change (spline_kind ec) with (m_splineKind c) in *. rewrite U1. cbn [bind]. rewrite L1. cbn [bind].
  eexists. split; [reflexivity|]. intros u' l' X. assert (u = u' /\ l = l') as [-> ->] by (split; congruence). auto.
Qed.
Lemma m_sift_fine fuel : forall n nh ext (x mean : list Qc), length mean = length x -> fine (m_sift spl fuel c (tz (length x)) n nh ext x mean).
Proof.
  induction fuel as [|fuel IH]; intros n nh ext x mean HL; [reflexivity|]. cbn [m_sift].
  destruct (m_MAX_ITERATION c <=? n); [exact I|]. destruct (m_find_ok x) as (e & E). rewrite E. cbn [bind].
  destruct (2 <? ext_no e); [|exact I].
  rewrite broadcast2_eq by (rewrite map_length; auto). cbn [bind].
  set (y := map2 nsub x (map (nmul (reduceScale c)) mean)).
  assert (Ly : length y = length x) by (unfold y; rewrite map2_length, map_length, HL; apply Nat.min_id). clearbody y.
  rewrite <- Ly. destruct (m_env_ok y) as (r & Er & HR). rewrite Er. cbn [bind].
  destruct r as [[u l]|]; [|exact I]. destruct (HR u l eq_refl) as [Lu Ll].
  rewrite broadcast2_eq by congruence. cbn [bind].
  set (mean' := map (nmul nhalf) (map2 nadd u l)).
  assert (Lm : length mean' = length y) by (unfold mean'; rewrite map_length, map2_length, Lu, Ll; apply Nat.min_id).
  destruct (maxIteration c <? n + 1); [exact I|].
  destruct (negb (m_FIXE c =? 0)); [destruct (m_FIXE c + 1 <=? n + 1); [exact I|auto]|].
  destruct (m_find_ok y) as (e' & E'). rewrite E'. cbn [bind]. destruct (negb (m_FIXE_H c =? 0)).
  { destruct (n + 1 =? 1); [auto|]. destruct (m_FIXE_H c <=? _); [exact I|auto]. }
  unfold stop_sifting. rewrite broadcast2_eq by congruence. cbn [bind]. destruct (_ && _); [exact I|auto].
Qed.
Lemma m_loop_fine fuel : forall k (R x : list Qc) rows ext, length x = length R -> fine (m_loop spl fuel c (tz (length R)) k R x rows ext).
Proof.
  induction fuel as [|fuel IH]; intros k R x rows ext HL; [reflexivity|]. cbn [m_loop].
  rewrite broadcast2_eq by auto. cbn [bind]. set (R' := map2 nsub R x).
  assert (LR : length R' = length R) by (unfold R'; rewrite map2_length, HL; apply Nat.min_id). clearbody R'. rewrite <- LR.
  pose proof (m_sift_fine (m_sift_fuel c) 0 0 ext R' (map (fun _ => n0) R') ltac:(apply map_length)) as F.
  destruct (m_sift spl (m_sift_fuel c) c (tz (length R')) 0 0 ext R' (map (fun _ => n0) R')) as [[[[y n1] ext1] nf]|e] eqn:E; [|exact F].
  cbn [bind]. apply m_sift_length in E. destruct (_ =? k - 1); [exact I|]. destruct nf; [|exact I]. apply IH. exact E.
Qed.
Theorem m_emd_fine fuel S T k : (forall t, T = Some t -> t = arange (length S)) -> fine (m_emd spl fuel c S T k).
Proof.
  intros HT. unfold m_emd.
  assert (ET : match T with Some t => t | None => map nofZ (zseq 0 (length S)) end = tz (length S)).
  { destruct T as [t|]; [rewrite (HT t eq_refl); apply arange_tz|reflexivity]. }
  rewrite ET, tz_length, Nat.eqb_refl. cbn [negb].
  apply fine_bind; [apply m_loop_fine; apply map_length|]. intros [rows ext] _. exact I.
Qed.
Theorem m_emd_returns fuel S T k : (forall kd p t, spl kd p t <> Raise OutOfFuel) -> (forall t, T = Some t -> t = arange (length S)) ->
  2 <= k -> (Z.to_nat (k - 1) <= fuel)%nat -> exists r, m_emd spl fuel c S T (Some k) = Ok r.
Proof.
  intros Hf HT Hk HF. pose proof (m_emd_fine fuel S T (Some k) HT) as F. pose proof (m_emd_total spl Hf fuel c S T k Hk HF) as G.
  destruct (m_emd spl fuel c S T (Some k)) as [r|e]; [eauto|]. cbn in F. subst e. exfalso. apply G. reflexivity.
Qed.
End Run.
