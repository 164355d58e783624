(** * ChecksLevel: the white noise test and the level of the imfs. *)
From Verif Require Import PyFacts Checks ChecksSpec ChecksLevelSpec ChecksProofs.
From Coq Require Import Reals Lra Lia.
From Coq Require Import String.
Open Scope Z_scope.
Local Notation length := List.length.

Lemma amplified_squares c row : sum_squares (map (Rmult c) row) = (c * c * sum_squares row)%R.
Proof. induction row as [|x row IH]; cbn [map sum_squares fold_right]; [ring|]. fold (sum_squares (map (Rmult c) row)). rewrite IH. unfold sum_squares. ring. Qed.
Lemma amplified_good c N rows : (0 < c)%R -> Forall (good N) rows -> Forall (good N) (amplified c rows).
Proof.
  intros Hc HG. apply Forall_forall. intros row' Hin. apply in_map_iff in Hin as (row & <- & Hin). rewrite Forall_forall in HG.
  destruct (HG row Hin) as [L P]. split; [rewrite map_length; exact L|]. rewrite amplified_squares. apply Rmult_lt_0_compat; auto. apply Rmult_lt_0_compat; auto.
Qed.
Lemma amplified_nth c rows i row : nth_error rows i = Some row -> nth_error (amplified c rows) i = Some (map (Rmult c) row).
Proof. intros E. unfold amplified. rewrite nth_error_map, E. reflexivity. Qed.
Lemma amplified_some c rows : rows <> [] -> amplified c rows <> [].
Proof. destruct rows; cbn; congruence. Qed.
Lemma amplified_zlen c rows : zlen (amplified c rows) = zlen rows.
Proof. unfold zlen, amplified. rewrite map_length. reflexivity. Qed.

Lemma nth_error_same {X} (l l' : list X) : (forall i, nth_error l i = nth_error l' i) -> l = l'.
Proof.
  revert l'. induction l as [|x l IH]; intros [|y l'] E; auto; try (specialize (E 0%nat); discriminate).
  pose proof (E 0%nat) as E0. injection E0 as ->. f_equal. apply IH. intros i. exact (E (Datatypes.S i)).
Qed.
Lemma verdicts_same rows rows' sig sig' out out' : length rows = length rows' -> verdicts rows sig out -> verdicts rows' sig' out' ->
  (forall i row row', nth_error rows i = Some row -> nth_error rows' i = Some row' -> (sig i row <-> sig' i row')) -> out = out'.
Proof.
  intros L [K1 V1] [K2 V2] HS.
  assert (L1 : length out = length rows). { apply (f_equal (@List.length Z)) in K1. rewrite !map_length, seq_length in K1. exact K1. }
  assert (L2 : length out' = length rows'). { apply (f_equal (@List.length Z)) in K2. rewrite !map_length, seq_length in K2. exact K2. }
  apply nth_error_same. intros i.
  destruct (nth_error rows i) as [row|] eqn:E1.
  - destruct (nth_error rows' i) as [row'|] eqn:E2.
    2:{ apply nth_error_None in E2. assert (i < length rows)%nat by (apply nth_error_Some; congruence). lia. }
    destruct (V1 i row E1) as (v & -> & Hv). destruct (V2 i row' E2) as (v' & -> & Hv'). specialize (HS i row row' E1 E2).
    destruct Hv as [[-> A]|[-> A]], Hv' as [[-> B]|[-> B]]; tauto.
  - apply nth_error_None in E1. rewrite !(proj2 (nth_error_None _ _)) by lia. reflexivity.
Qed.

Lemma root_lt x c : (0 < x)%R -> (0 < c)%R -> (sqrt x < c <-> x < c * c)%R.
Proof.
  intros Hx Hc. split; intros L.
  - rewrite <- (sqrt_sqrt x) by lra. pose proof (sqrt_pos x). apply Rmult_le_0_lt_compat; lra.
  - rewrite <- (sqrt_square c) by lra. apply sqrt_lt_1; [lra|apply Rlt_le, Rmult_lt_0_compat; lra|exact L].
Qed.
Lemma lt_root x c : (0 < x)%R -> (0 < c)%R -> (c < sqrt x <-> c * c < x)%R.
Proof.
  intros Hx Hc. split; intros L.
  - rewrite <- (sqrt_sqrt x) by lra. apply Rmult_le_0_lt_compat; lra.
  - rewrite <- (sqrt_square c) by lra. apply sqrt_lt_1; [apply Rlt_le, Rmult_lt_0_compat; lra|lra|exact L].
Qed.
(** d < ln (c^2 q) *)
Lemma above_level d q c : (0 < q)%R -> (0 < c)%R -> (d < ln (c * c * q) <-> sqrt (exp d / q) < c)%R.
Proof.
  intros Hq Hc. assert (Hcc : (0 < c * c)%R) by (apply Rmult_lt_0_compat; auto).
  assert (Hp : (0 < c * c * q)%R) by (apply Rmult_lt_0_compat; auto).
  rewrite root_lt; auto. 2:{ apply Rdiv_lt_0_compat; auto. apply exp_pos. }
  rewrite <- (ln_exp d) at 1. split; intros L.
  - apply ln_lt_inv in L; auto using exp_pos. apply (Rmult_lt_reg_r q); auto. replace (exp d / q * q)%R with (exp d) by (field; lra). exact L.
  - apply ln_increasing; [apply exp_pos|]. apply (Rmult_lt_compat_r q) in L; auto. replace (exp d / q * q)%R with (exp d) in L by (field; lra). exact L.
Qed.
Lemma below_level d q c : (0 < q)%R -> (0 < c)%R -> (ln (c * c * q) < d <-> c < sqrt (exp d / q))%R.
Proof.
  intros Hq Hc. assert (Hcc : (0 < c * c)%R) by (apply Rmult_lt_0_compat; auto).
  assert (Hp : (0 < c * c * q)%R) by (apply Rmult_lt_0_compat; auto).
  rewrite lt_root; auto. 2:{ apply Rdiv_lt_0_compat; auto. apply exp_pos. }
  rewrite <- (ln_exp d) at 1. split; intros L.
  - apply ln_lt_inv in L; auto using exp_pos. apply (Rmult_lt_reg_r q); auto. replace (exp d / q * q)%R with (exp d) by (field; lra). exact L.
  - apply ln_increasing; [exact Hp|]. apply (Rmult_lt_compat_r q) in L; auto. replace (exp d / q * q)%R with (exp d) in L by (field; lra). exact L.
Qed.

Section Level.
Variable ppf : R -> R.
Variable peaks : list R -> nat.

Lemma reference_level rows rows' N r a ref ref' : (0 < N)%nat -> (INR N < 2 ^ 1024)%R -> Forall (good N) rows -> Forall (good N) rows' ->
  (0 < a < 1)%R -> nth_error rows r = Some ref -> nth_error rows' r = Some ref' -> peaks ref' = peaks ref ->
  (forall i, i <> r -> nth_error rows' i = nth_error rows i) ->
  whitenoise_check ppf peaks (numbers rows') "aposteriori" (Some (Z.of_nat r + 1)) (Some a) =
  whitenoise_check ppf peaks (numbers rows) "aposteriori" (Some (Z.of_nat r + 1)) (Some a).
Proof.
  intros HN HB HG HG' Ha Hr Hr' HP HO.
  assert (NE : rows <> []) by (intros ->; destruct r; discriminate). assert (NE' : rows' <> []) by (intros ->; destruct r; discriminate).
  destruct (Rlt_dec (scaling (quantile ppf a) (INR N) (samples_per_peak N (peaks ref))) (2 ^ 1024)) as [L|L].
  - destruct (check_aposteriori ppf peaks rows N r a ref NE HN HB HG Ha Hr L) as (out & -> & V).
    rewrite <- HP in L. destruct (check_aposteriori ppf peaks rows' N r a ref' NE' HN HB HG' Ha Hr' L) as (out' & -> & V').
    do 2 f_equal. eapply verdicts_same; [|exact V'|exact V|].
    + apply Nat.le_antisymm.
      * destruct (le_lt_dec (length rows') (length rows)) as [|X]; auto. exfalso.
        assert (nth_error rows (length rows) = None) as E by (apply nth_error_None; lia).
        rewrite <- HO in E; [apply nth_error_None in E; lia|]. intros Y. assert (r < length rows)%nat by (apply nth_error_Some; congruence). lia.
      * destruct (le_lt_dec (length rows) (length rows')) as [|X]; auto. exfalso.
        assert (nth_error rows' (length rows') = None) as E by (apply nth_error_None; lia).
        rewrite HO in E; [apply nth_error_None in E; lia|]. intros Y. assert (r < length rows')%nat by (apply nth_error_Some; congruence). lia.
    + intros i row row' E E'. cbv beta. rewrite HP. destruct (Nat.eqb_spec i r) as [_|D]; [reflexivity|]. rewrite (HO i D), E' in E. injection E as <-. reflexivity.
  - apply Rnot_lt_le in L. rewrite (check_overflow ppf peaks rows N r a ref NE HN HB HG Ha Hr L).
    rewrite <- HP in L. exact (check_overflow ppf peaks rows' N r a ref' NE' HN HB HG' Ha Hr' L).
Qed.

Lemma row_facts N rows i row : (0 < N)%nat -> Forall (good N) rows -> nth_error rows i = Some row ->
  In row rows /\ (0 < sum_squares row)%R /\ (0 < INR N)%R /\ (0 < samples_per_peak N (peaks row))%R.
Proof.
  intros HN HG E. assert (Hin : In row rows) by (eapply nth_error_In; eauto). rewrite Forall_forall in HG. destruct (HG row Hin) as [_ P].
  split; auto. split; auto. split; [apply lt_0_INR; lia|apply spp_pos; auto].
Qed.
Lemma level_aposteriori rows N r a ref i row : (0 < N)%nat -> (INR N < 2 ^ 1024)%R -> Forall (good N) rows -> (0 < a < 1)%R ->
  level_free peaks rows -> nth_error rows r = Some ref ->
  (scaling (quantile ppf a) (INR N) (samples_per_peak N (peaks ref)) < 2 ^ 1024)%R ->
  i <> r -> nth_error rows i = Some row ->
  exists c0, (0 < c0)%R /\ forall c, (0 < c)%R -> exists out,
    whitenoise_check ppf peaks (numbers (amplified c rows)) "aposteriori" (Some (Z.of_nat r + 1)) (Some a) = Ok (Some out) /\
    ((c0 < c)%R /\ says out i 1 \/ (c <= c0)%R /\ says out i 0).
Proof.
  intros HN HB HG Ha HL Hr HS D Hi. set (k := quantile ppf a) in *. set (P := samples_per_peak N (peaks ref)) in *. set (s := scaling k (INR N) P) in *.
  destruct (row_facts N rows i row HN HG Hi) as (Hin & HE & HI & HT). set (T := samples_per_peak N (peaks row)) in *.
  assert (Hs : (0 < s)%R) by (apply scaling_pos, spp_pos; auto).
  set (q := (sum_squares row * T / (INR N * s))%R).
  assert (Hq : (0 < q)%R) by (apply Rdiv_lt_0_compat; apply Rmult_lt_0_compat; auto).
  exists (sqrt (exp (k * sqrt (2 * T / INR N)) / q)). split; [apply sqrt_lt_R0, Rdiv_lt_0_compat; auto; apply exp_pos|].
  intros c Hc. pose proof (amplified_good c N rows Hc HG) as HG'. pose proof (amplified_nth c rows r ref Hr) as Hr'.
  pose proof (HL c ref Hc (nth_error_In _ _ Hr)) as HPr. pose proof (HL c row Hc Hin) as HPi.
  assert (NE : amplified c rows <> []) by (apply amplified_some; intros ->; destruct r; discriminate).
  destruct (check_aposteriori ppf peaks (amplified c rows) N r a (map (Rmult c) ref) NE HN HB HG' Ha Hr') as (out & E & _ & V).
  { rewrite HPr. exact HS. }
  exists out. split; [exact E|]. destruct (V i _ (amplified_nth c rows i row Hi)) as (v & Ev & Hv).
  rewrite (proj2 (Nat.eqb_neq i r) D) in Hv. rewrite HPr, HPi in Hv. fold P in Hv. fold T in Hv. fold k in Hv. fold s in Hv. unfold above_noise in Hv.
  rewrite amplified_squares in Hv. replace (c * c * sum_squares row * T / (INR N * s))%R with (c * c * q)%R in Hv by (unfold q; field; split; lra).
  rewrite above_level in Hv by auto. unfold says. destruct Hv as [[-> Hv]|[-> Hv]]; [left; auto|right; split; auto; lra].
Qed.
Lemma level_apriori rows N r a i row : (0 < N)%nat -> (INR N < 2 ^ 1024)%R -> Forall (good N) rows -> (0 < a < 1)%R ->
  level_free peaks rows -> 1 <= r <= zlen rows -> nth_error rows i = Some row ->
  exists c0 c1, (0 < c0 <= c1)%R /\ forall c, (0 < c)%R -> exists out,
    whitenoise_check ppf peaks (numbers (amplified c rows)) "apriori" (Some r) (Some a) = Ok (Some out) /\
    ((c < c0 \/ c1 < c)%R /\ says out i 1 \/ (c0 <= c <= c1)%R /\ says out i 0).
Proof.
  intros HN HB HG Ha HL Hr Hi. set (k := quantile ppf a) in *.
  destruct (row_facts N rows i row HN HG Hi) as (Hin & HE & HI & HT). set (T := samples_per_peak N (peaks row)) in *.
  set (q := (sum_squares row * T / INR N)%R). set (d := (k * sqrt (2 * T / INR N))%R).
  assert (Hd : (0 <= d)%R) by (apply Rmult_le_pos; [apply Rabs_pos|apply sqrt_pos]).
  assert (Hq : (0 < q)%R) by (apply Rdiv_lt_0_compat; auto; apply Rmult_lt_0_compat; auto).
  exists (sqrt (exp (- d) / q)), (sqrt (exp d / q)). split.
  { split; [apply sqrt_lt_R0, Rdiv_lt_0_compat; auto; apply exp_pos|]. apply sqrt_le_1_alt. unfold Rdiv. apply Rmult_le_compat_r; [apply Rlt_le, Rinv_0_lt_compat; auto|].
    destruct (Req_dec d 0) as [->|]; [rewrite Ropp_0; lra|]. apply Rlt_le, exp_increasing. lra. }
  intros c Hc. pose proof (amplified_good c N rows Hc HG) as HG'. pose proof (HL c row Hc Hin) as HPi.
  assert (NE : amplified c rows <> []) by (apply amplified_some; intros ->; destruct i; discriminate).
  destruct (check_apriori ppf peaks (amplified c rows) N r a NE HN HB HG' Ha) as (out & E & _ & V); [rewrite amplified_zlen; exact Hr|].
  exists out. split; [exact E|]. destruct (V i _ (amplified_nth c rows i row Hi)) as (v & Ev & Hv).
  rewrite HPi in Hv. fold T in Hv. fold k in Hv. unfold outside in Hv. fold d in Hv.
  rewrite amplified_squares in Hv. replace (c * c * sum_squares row * T / INR N)%R with (c * c * q)%R in Hv by (unfold q; field; lra).
  assert (HA : (d < Rabs (ln (c * c * q)) <-> c < sqrt (exp (- d) / q) \/ sqrt (exp d / q) < c)%R).
  { rewrite <- below_level, <- above_level by auto. unfold Rabs. destruct (Rcase_abs _); split; [intros; left; lra|intros [|]; lra|intros; right; lra|intros [|]; lra]. }
  rewrite HA in Hv. unfold says. destruct Hv as [[-> Hv]|[-> Hv]]; [left; auto|right; split; auto].
  split; apply Rnot_lt_le; tauto.
Qed.
Lemma own_row rows rows' N r r' a i i' row out out' : (0 < N)%nat -> (INR N < 2 ^ 1024)%R -> Forall (good N) rows -> Forall (good N) rows' ->
  (0 < a < 1)%R -> 1 <= r <= zlen rows -> 1 <= r' <= zlen rows' ->
  nth_error rows i = Some row -> nth_error rows' i' = Some row ->
  whitenoise_check ppf peaks (numbers rows) "apriori" (Some r) (Some a) = Ok (Some out) ->
  whitenoise_check ppf peaks (numbers rows') "apriori" (Some r') (Some a) = Ok (Some out') ->
  exists v, says out i v /\ says out' i' v.
Proof.
  intros HN HB HG HG' Ha Hr Hr' Hi Hi' E E'.
  assert (NE : rows <> []) by (intros ->; destruct i; discriminate). assert (NE' : rows' <> []) by (intros ->; destruct i'; discriminate).
  destruct (check_apriori ppf peaks rows N r a NE HN HB HG Ha Hr) as (o & Eo & _ & V). rewrite E in Eo. injection Eo as <-.
  destruct (check_apriori ppf peaks rows' N r' a NE' HN HB HG' Ha Hr') as (o & Eo & _ & V'). rewrite E' in Eo. injection Eo as <-.
  destruct (V i row Hi) as (v & Ev & Hv). destruct (V' i' row Hi') as (v' & Ev' & Hv'). exists v. split; [exact Ev|]. unfold says. rewrite Ev'. do 2 f_equal.
  destruct Hv as [[-> A]|[-> A]], Hv' as [[-> B]|[-> B]]; tauto.
Qed.
End Level.
