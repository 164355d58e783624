(** * ChecksProofs: lemmas about checks.py. *)
From Verif Require Import PyFacts Checks ChecksSpec.
From Coq Require Import Reals Lra Lia ZifyBool ZifyNat.
From Coq Require String.
Open Scope Z_scope.

Lemma energy_squares x : energy x = sum_squares x.
Proof.
  unfold energy, sum_squares. rewrite fold_symmetric.
  - induction x as [|a x IH]; simpl; auto. rewrite IH. reflexivity.
  - intros; ring.
  - intros; ring.
Qed.
Section P.
Variable ppf : R -> R.
Variable peaks : list R -> nat.
Notation mp := (mean_period peaks).

Lemma mean_period_eq x : mp x = samples_per_peak (length x) (peaks x).
Proof.
  unfold mean_period, samples_per_peak. destruct (Z.ltb_spec 0 (Z.of_nat (peaks x))) as [L|L].
  - rewrite Nat.max_r by lia. reflexivity.
  - rewrite Nat.max_l by lia. change (INR 1) with 1%R. field.
Qed.
Lemma spp_pos n p : (0 < n)%nat -> (0 < samples_per_peak n p)%R.
Proof. intros Hn. unfold samples_per_peak. apply Rdiv_lt_0_compat; apply lt_0_INR; lia. Qed.
Lemma spp_le n p : (samples_per_peak n p <= INR n)%R.
Proof.
  unfold samples_per_peak. pose proof (pos_INR n). assert (1 <= INR (Nat.max 1 p))%R by (change 1%R with (INR 1); apply le_INR; lia).
  apply (Rmult_le_reg_r (INR (Nat.max 1 p))); [lra|]. unfold Rdiv. rewrite Rmult_assoc, Rinv_l by lra. nra.
Qed.
Lemma spp_ge n p : (p <= n)%nat -> (0 < n)%nat -> (1 <= samples_per_peak n p)%R.
Proof.
  intros Hp Hn. unfold samples_per_peak. assert (0 < INR (Nat.max 1 p))%R by (apply lt_0_INR; lia).
  apply (Rmult_le_reg_r (INR (Nat.max 1 p))); [lra|]. unfold Rdiv. rewrite Rmult_assoc, Rinv_l by lra.
  rewrite Rmult_1_l, Rmult_1_r. apply le_INR. lia.
Qed.
Lemma log_ok x : (0 < x)%R -> math_log x = Ok (ln x).
Proof. intros Hx. unfold math_log. destruct (Rlt_dec 0 x); [auto|contradiction]. Qed.
Lemma exp_ok x : (exp x < 2 ^ 1024)%R -> math_exp x = Ok (exp x).
Proof. intros Hx. unfold math_exp. destruct (Rlt_dec (exp x) (2 ^ 1024)); [auto|contradiction]. Qed.
Lemma exp_half_ln T : (0 < T)%R -> exp (ln T / 2) = sqrt T.
Proof.
  intros HT. assert (E : (exp (ln T / 2) * exp (ln T / 2) = T)%R).
  { rewrite <- exp_plus. replace (ln T / 2 + ln T / 2)%R with (ln T) by lra. apply exp_ln. auto. }
  rewrite <- E at 2. rewrite sqrt_square; auto. left. apply exp_pos.
Qed.
Lemma sqrt_merge N T : (0 < N)%R -> (0 < T)%R -> (sqrt (2 / N) * sqrt T = sqrt (2 * T / N))%R.
Proof. intros HN HT. rewrite <- sqrt_mult_alt. - f_equal. field. lra. - left. apply Rdiv_lt_0_compat; lra. Qed.
Lemma sqrt_big T : (0 < T)%R -> (T < 2 ^ 1024)%R -> (sqrt T < 2 ^ 1024)%R.
Proof.
  intros HT HB. assert (1 <= 2 ^ 1024)%R by (apply pow_R1_Rle; lra).
  destruct (Rle_dec T 1) as [L|L].
  - apply Rlt_le_trans with 2%R; [|replace 2%R with (2 ^ 1)%R at 1 by ring; apply Rle_pow; [lra|lia]].
    apply Rle_lt_trans with (sqrt 1); [apply sqrt_le_1; lra|rewrite sqrt_1; lra].
  - apply Rle_lt_trans with T; auto. rewrite <- (sqrt_square T) at 2 by lra. apply sqrt_le_1; nra.
Qed.
Lemma quantile_nonneg a : (0 <= quantile ppf a)%R.
Proof. apply Rabs_pos. Qed.

Lemma apriori_spec E T N a : (0 < E)%R -> (0 < T)%R -> (0 < N)%R -> (T < 2 ^ 1024)%R ->
  exists b, significance_apriori ppf (ln (E / N)) (ln T) N a = Ok b /\
    (b = true <-> outside (quantile ppf a) N E T).
Proof.
  intros HE HT HN HB. unfold significance_apriori. rewrite exp_ok; rewrite exp_half_ln by auto; [|apply sqrt_big; auto].
  cbn [bind]. rewrite sqrt_merge by auto. set (d := (quantile ppf a * sqrt (2 * T / N))%R).
  eexists. split; [reflexivity|]. unfold outside. fold d.
  assert (EL : ln (E * T / N) = (ln (E / N) + ln T)%R).
  { replace (E * T / N)%R with (E / N * T)%R by (field; lra). apply ln_mult; auto. apply Rdiv_lt_0_compat; auto. }
  rewrite EL. set (x := ln (E / N)). set (y := ln T).
  assert (Hd : (0 <= d)%R) by (apply Rmult_le_pos; [apply quantile_nonneg|apply sqrt_pos]).
  destruct (Rle_dec (- y - d) x) as [L1|L1]; [destruct (Rle_dec x (- y + d)) as [L2|L2]|]; cbn [negb].
  - split; [discriminate|]. intros HR. exfalso. unfold Rabs in HR. destruct (Rcase_abs _); lra.
  - split; auto. intros _. apply Rlt_le_trans with (x + y)%R; [lra|apply Rle_abs].
  - split; auto. intros _. rewrite <- Rabs_Ropp. apply Rlt_le_trans with (- (x + y))%R; [lra|apply Rle_abs].
Qed.
Lemma aposteriori_spec z T N a : (0 < T)%R -> (0 < N)%R -> (T < 2 ^ 1024)%R ->
  exists b, significance_aposteriori ppf z (ln T) N a = Ok b /\
    (b = true <-> (quantile ppf a * sqrt (2 * T / N) < z + ln T)%R).
Proof.
  intros HT HN HB. unfold significance_aposteriori. rewrite exp_ok; rewrite exp_half_ln by auto; [|apply sqrt_big; auto].
  cbn [bind]. rewrite sqrt_merge by auto. eexists. split; [reflexivity|].
  destruct (Rle_dec _ _) as [L|L]; cbn [negb]; split; intros; try discriminate; auto; lra.
Qed.

Lemma verdict_cons (rows : list (list R)) (sig : nat -> list R -> Prop) idx row (out : list (Z * Z)) v :
  (v = 1 /\ sig idx row \/ v = 0 /\ ~ sig idx row) ->
  map fst out = map (fun i => Z.of_nat i + 1) (seq (Datatypes.S idx) (length rows)) ->
  (forall i r, nth_error rows i = Some r -> exists w, nth_error out i = Some (Z.of_nat (Datatypes.S idx + i) + 1, w) /\
     (w = 1 /\ sig (Datatypes.S idx + i)%nat r \/ w = 0 /\ ~ sig (Datatypes.S idx + i)%nat r)) ->
  map fst ((Z.of_nat idx + 1, v) :: out) = map (fun i => Z.of_nat i + 1) (seq idx (length (row :: rows))) /\
  (forall i r, nth_error (row :: rows) i = Some r -> exists w, nth_error ((Z.of_nat idx + 1, v) :: out) i = Some (Z.of_nat (idx + i) + 1, w) /\
     (w = 1 /\ sig (idx + i)%nat r \/ w = 0 /\ ~ sig (idx + i)%nat r)).
Proof.
  intros Hv H1 H2. split; [cbn [map fst length seq]; rewrite H1; reflexivity|].
  intros [|i] r Hr.
  - injection Hr as <-. exists v. rewrite Nat.add_0_r. split; auto.
  - cbn [nth_error] in *. destruct (H2 i r Hr) as (w & E & Hw). exists w.
    replace (idx + Datatypes.S i)%nat with (Datatypes.S idx + i)%nat by lia. auto.
Qed.
Lemma apriori_loop_spec N a : (0 < N)%nat -> (INR N < 2 ^ 1024)%R ->
  forall rows idx, Forall (good N) rows ->
  exists out, apriori_loop ppf peaks (Z.of_nat idx) rows (INR N) a = Ok out /\
    map fst out = map (fun i => Z.of_nat i + 1) (seq idx (length rows)) /\
    forall i r, nth_error rows i = Some r -> exists w, nth_error out i = Some (Z.of_nat (idx + i) + 1, w) /\
      (w = 1 /\ outside (quantile ppf a) (INR N) (sum_squares r) (samples_per_peak N (peaks r)) \/
       w = 0 /\ ~ outside (quantile ppf a) (INR N) (sum_squares r) (samples_per_peak N (peaks r))).
Proof.
  intros HN HB. assert (HN' : (0 < INR N)%R) by (apply lt_0_INR; auto).
  induction rows as [|row rows IH]; intros idx HG.
  { exists []. split; auto. split; auto. intros [|i] r Hr; discriminate. }
  inversion HG as [|? ? [HL HE] HG']; subst. cbn [apriori_loop].
  rewrite mean_period_eq, energy_squares. set (T := samples_per_peak (length row) (peaks row)).
  assert (HT : (0 < T)%R) by (apply spp_pos; auto).
  assert (HTB : (T < 2 ^ 1024)%R) by (eapply Rle_lt_trans; [apply spp_le|auto]).
  rewrite log_ok by auto. cbn [bind]. rewrite log_ok by (apply Rdiv_lt_0_compat; auto). cbn [bind].
  destruct (apriori_spec (sum_squares row) T (INR (length row)) a HE HT HN' HTB) as (b & Eb & Hb). rewrite Eb. cbn [bind].
  destruct (IH (Datatypes.S idx) HG') as (out & Eo & H1 & H2).
  replace (Z.of_nat (Datatypes.S idx)) with (Z.of_nat idx + 1) in Eo by lia. rewrite Eo. cbn [bind].
  eexists. split; [reflexivity|].
  apply (verdict_cons rows (fun _ r => outside (quantile ppf a) (INR (length row)) (sum_squares r) (samples_per_peak (length row) (peaks r))) idx row out (Z.b2z b)); auto.
  fold T. destruct b; [left|right]; split; auto; [apply Hb; auto|]. intros HO. apply Hb in HO. discriminate.
Qed.
Lemma aposteriori_loop_spec N a s r : (0 < N)%nat -> (INR N < 2 ^ 1024)%R -> (0 < s)%R ->
  forall rows idx, Forall (good N) rows ->
  let sig i row := if Nat.eqb (Datatypes.S i) r
      then (quantile ppf a * sqrt (2 * samples_per_peak N (peaks row) / INR N) < ln s + ln (samples_per_peak N (peaks row)))%R
      else above_noise (quantile ppf a) (INR N) (sum_squares row) (samples_per_peak N (peaks row)) s in
  exists out, aposteriori_loop ppf peaks (Z.of_nat idx) rows (Z.of_nat r) s (INR N) a = Ok out /\
    map fst out = map (fun i => Z.of_nat i + 1) (seq idx (length rows)) /\
    forall i row, nth_error rows i = Some row -> exists w, nth_error out i = Some (Z.of_nat (idx + i) + 1, w) /\
      (w = 1 /\ sig (idx + i)%nat row \/ w = 0 /\ ~ sig (idx + i)%nat row).
Proof.
  intros HN HB Hs. assert (HN' : (0 < INR N)%R) by (apply lt_0_INR; auto).
  induction rows as [|row rows IH]; intros idx HG sig.
  { exists []. split; auto. split; auto. intros [|i] row Hr; discriminate. }
  inversion HG as [|? ? [HL HE] HG']; subst. cbn [aposteriori_loop].
  rewrite mean_period_eq, energy_squares. set (T := samples_per_peak (length row) (peaks row)) in *.
  assert (HT : (0 < T)%R) by (apply spp_pos; auto).
  assert (HTB : (T < 2 ^ 1024)%R) by (eapply Rle_lt_trans; [apply spp_le|auto]).
  rewrite log_ok by auto. cbn [bind].
  rewrite (log_ok (sum_squares row / INR (length row) / s)) by (repeat apply Rdiv_lt_0_compat; auto). rewrite (log_ok s) by auto.
  destruct (IH (Datatypes.S idx) HG') as (out & Eo & H1 & H2).
  set (z := if Nat.eqb (Datatypes.S idx) r then ln s else ln (sum_squares row / INR (length row) / s)).
  replace (if negb (Z.of_nat idx =? Z.of_nat r - 1) then Ok (ln (sum_squares row / INR (length row) / s)) else Ok (ln s)) with (Ok z).
  2:{ unfold z. destruct (Nat.eqb_spec (Datatypes.S idx) r), (Z.eqb_spec (Z.of_nat idx) (Z.of_nat r - 1)); cbn [negb]; auto; lia. }
  cbn [bind]. destruct (aposteriori_spec z T (INR (length row)) a HT HN' HTB) as (b & Eb & Hb). rewrite Eb. cbn [bind].
  replace (Z.of_nat (Datatypes.S idx)) with (Z.of_nat idx + 1) in Eo by lia. rewrite Eo. cbn [bind].
  eexists. split; [reflexivity|].
  apply (verdict_cons rows sig idx row out (Z.b2z b)); auto.
  assert (Hsig : sig idx row <-> b = true).
  { rewrite Hb. unfold sig, z. fold T. destruct (Nat.eqb (Datatypes.S idx) r); [reflexivity|]. unfold above_noise.
    replace (ln (sum_squares row * T / (INR (length row) * s)))%R with (ln (sum_squares row / INR (length row) / s) + ln T)%R; [reflexivity|].
    rewrite <- ln_mult; auto; [f_equal; field; lra|]. repeat apply Rdiv_lt_0_compat; auto. }
  destruct b; [left|right]; split; auto; [apply Hsig; auto|]. intros HO. apply Hsig in HO. discriminate.
Qed.
End P.

Section Top.
Variable ppf : R -> R.
Variable peaks : list R -> nat.
Import String.
Local Notation length := List.length.

Lemma cval_fin rows : map (map cval) (map (map Fin) rows) = rows.
Proof.
  rewrite map_map. rewrite <- (map_id rows) at 2. apply map_ext. intros l. rewrite map_map. apply map_id.
Qed.
Lemma nan_fin rows : existsb (existsb is_nan) (map (map Fin) rows) = false.
Proof.
  induction rows as [|r rows IH]; cbn [map existsb]; auto. rewrite IH, orb_false_r.
  induction r; cbn [map existsb]; auto.
Qed.
Lemma good_lengths N rows : Forall (good N) rows -> Forall (fun row => length row = N) rows.
Proof. apply Forall_impl. intros x [H _]. exact H. Qed.
Lemma check_numbers rows N test r a : rows <> [] -> (0 < N)%nat -> Forall (fun row => length row = N) rows ->
  (0 < a < 1)%R -> test = "apriori"%string \/ test = "aposteriori"%string -> 1 <= r <= zlen rows ->
  whitenoise_check ppf peaks (numbers rows) test (Some r) (Some a) =
    if String.eqb test "apriori" then
      let! out := apriori_loop ppf peaks 0 rows (INR N) a in Ok (Some out)
    else
      let! imf := py_get rows (r - 1) in
      let! period := math_log (mean_period peaks imf) in
      let! density := math_log (energy imf / INR N) in
      let! e := math_exp period in
      let! s := math_exp (- period + quantile ppf a * sqrt (2 / INR N) * e / 2)%R in
      let! out := aposteriori_loop ppf peaks 0 rows r s (INR N) a in Ok (Some out).
Proof.
  intros H0 HN HG [Ha1 Ha2] Ht Hr. unfold numbers, whitenoise_check.
  destruct rows as [|row0 rows]; [contradiction|]. inversion HG as [|? ? HL HG']; subst N.
  destruct row0 as [|x0 row0]; [cbn [List.length] in HN; lia|].
  cbn [map]. destruct (Rlt_dec 0 a); [|contradiction]. destruct (Rlt_dec a 1); [|contradiction].
  replace (String.eqb test "apriori" || String.eqb test "aposteriori")%bool with true.
  2:{ destruct Ht as [-> | ->]; reflexivity. }
  change ((Fin x0 :: map Fin row0) :: map (map Fin) rows) with (map (map Fin) ((x0 :: row0) :: rows)).
  rewrite nan_fin, cval_fin, zlen_map. replace ((0 <? r) && (r <=? zlen ((x0 :: row0) :: rows)))%bool with true by lia.
  change (Fin x0 :: map Fin row0) with (map Fin (x0 :: row0)). rewrite map_length.
  assert (M : map cval (map Fin row0) = row0) by (rewrite map_map; apply map_id).
  cbn [map]. rewrite ?M. reflexivity.
Qed.

Lemma check_apriori rows N r a : rows <> [] -> (0 < N)%nat -> (INR N < 2 ^ 1024)%R -> Forall (good N) rows ->
  (0 < a < 1)%R -> 1 <= r <= zlen rows ->
  exists out, whitenoise_check ppf peaks (numbers rows) "apriori" (Some r) (Some a) = Ok (Some out) /\
    verdicts rows (fun _ row => outside (quantile ppf a) (INR N) (sum_squares row) (samples_per_peak N (peaks row))) out.
Proof.
  intros H0 HN HB HG Ha Hr. rewrite (check_numbers rows N) by (auto using good_lengths). cbn [String.eqb Ascii.eqb eqb].
  destruct (apriori_loop_spec ppf peaks N a HN HB rows 0%nat HG) as (out & Eo & H1 & H2).
  change (Z.of_nat 0) with 0 in Eo. rewrite Eo. cbn [bind]. exists out. split; [reflexivity|]. split; auto.
Qed.

Lemma scaling_pos k N P : (0 < P)%R -> (0 < scaling k N P)%R.
Proof. intros HP. apply Rdiv_lt_0_compat; auto. apply exp_pos. Qed.
Lemma exp_640 : (exp 640 < 2 ^ 1024)%R.
Proof.
  assert (E : forall n, (exp (INR n) <= 3 ^ n)%R).
  { induction n as [|n IH]; [simpl; rewrite exp_0; lra|]. rewrite S_INR, exp_plus. simpl.
    pose proof (exp_pos (INR n)). pose proof exp_le_3. pose proof (exp_pos 1).
    rewrite (Rmult_comm 3). apply Rmult_le_compat; lra. }
  specialize (E (Z.to_nat 640)). rewrite INR_IZR_INZ, Z2Nat.id in E by lia. eapply Rle_lt_trans; [exact E|].
  rewrite !pow_IZR. apply IZR_lt. vm_compute. reflexivity.
Qed.
Lemma scaling_eq k N P : (0 < P)%R -> exp (- ln P + k * sqrt (2 / N) * exp (ln P) / 2) = scaling k N P.
Proof.
  intros HP. rewrite exp_plus, exp_Ropp, exp_ln by auto. unfold scaling, Rdiv. ring.
Qed.
Lemma ln_scaling k N P : (0 < P)%R -> ln (scaling k N P) = (k * sqrt (2 / N) * P / 2 - ln P)%R.
Proof.
  intros HP. unfold scaling. unfold Rdiv at 1. rewrite ln_mult; [|apply exp_pos|apply Rinv_0_lt_compat; auto].
  rewrite ln_exp, ln_Rinv by auto. reflexivity.
Qed.
(** The reference imf is reported as significant iff its mean period is above four. *)
Lemma reference_sig k N P : (0 <= k)%R -> (0 < N)%R -> (0 < P)%R ->
  ((k * sqrt (2 * P / N) < ln (scaling k N P) + ln P)%R <-> (0 < k /\ 4 < P)%R).
Proof.
  intros Hk HN HP. rewrite ln_scaling by auto. rewrite <- sqrt_merge by auto.
  set (s := sqrt (2 / N)). assert (Hs : (0 < s)%R) by (apply sqrt_lt_R0, Rdiv_lt_0_compat; lra).
  assert (HPs : (sqrt P * sqrt P = P)%R) by (apply sqrt_sqrt; lra).
  assert (HPp : (0 < sqrt P)%R) by (apply sqrt_lt_R0; auto). set (w := sqrt P) in *.
  rewrite <- HPs. split.
  - intros HH. assert (G : (0 < k * s * (w * (w - 2)))%R) by lra.
    assert (K0 : (0 < k)%R).
    { destruct Hk as [|<-]; auto. rewrite !Rmult_0_l in G. lra. }
    split; auto. assert (0 < k * s)%R by nra.
    assert (G2 : (0 < w * (w - 2))%R). { destruct (Rlt_dec 0 (w * (w - 2))); auto. exfalso. nra. }
    assert (2 < w)%R. { destruct (Rlt_dec 2 w); auto. exfalso. nra. } nra.
  - intros [K0 HP4]. assert (2 < w)%R by nra. assert (0 < k * s)%R by nra.
    assert (0 < w * (w - 2))%R by nra. assert (0 < k * s * (w * (w - 2)))%R by nra. lra.
Qed.

Lemma check_aposteriori rows N r a ref : rows <> [] -> (0 < N)%nat -> (INR N < 2 ^ 1024)%R -> Forall (good N) rows ->
  (0 < a < 1)%R -> nth_error rows r = Some ref ->
  let k := quantile ppf a in let P := samples_per_peak N (peaks ref) in
  (scaling k (INR N) P < 2 ^ 1024)%R ->
  exists out, whitenoise_check ppf peaks (numbers rows) "aposteriori" (Some (Z.of_nat r + 1)) (Some a) = Ok (Some out) /\
    verdicts rows (fun i row =>
      if Nat.eqb i r then (0 < k /\ 4 < P)%R
      else above_noise k (INR N) (sum_squares row) (samples_per_peak N (peaks row)) (scaling k (INR N) P)) out.
Proof.
  intros H0 HN HB HG Ha Hr k P HS.
  assert (Hlt : (r < length rows)%nat) by (apply nth_error_Some; congruence).
  assert (HN' : (0 < INR N)%R) by (apply lt_0_INR; auto).
  assert (Href : good N ref) by (rewrite Forall_forall in HG; apply HG; eapply nth_error_In; eauto).
  destruct Href as [HL HE].
  assert (HP : (0 < P)%R) by (apply spp_pos; auto).
  assert (HPB : (P < 2 ^ 1024)%R) by (eapply Rle_lt_trans; [apply spp_le|auto]).
  rewrite (check_numbers rows N) by (auto using good_lengths; unfold zlen; lia). cbn [String.eqb Ascii.eqb eqb].
  replace (py_get rows (Z.of_nat r + 1 - 1)) with (Ok ref).
  2:{ symmetry. rewrite (py_get_nonneg rows (Z.of_nat r + 1 - 1) ref) by (unfold zlen; lia). f_equal.
      replace (Z.to_nat (Z.of_nat r + 1 - 1)) with r by lia. apply nth_error_nth. auto. }
  cbn [bind]. rewrite mean_period_eq, HL, energy_squares. fold P.
  rewrite log_ok by auto. cbn [bind]. rewrite log_ok by (apply Rdiv_lt_0_compat; auto). cbn [bind].
  rewrite exp_ok by (rewrite exp_ln by auto; auto). cbn [bind]. fold k.
  rewrite exp_ok; rewrite scaling_eq by auto; [|auto]. cbn [bind].
  destruct (aposteriori_loop_spec ppf peaks N a (scaling k (INR N) P) (Datatypes.S r) HN HB (scaling_pos _ _ _ HP) rows 0%nat HG)
    as (out & Eo & H1 & H2). replace (Z.of_nat (Datatypes.S r)) with (Z.of_nat r + 1) in Eo by lia.
  change (Z.of_nat 0) with 0 in Eo. rewrite Eo. cbn [bind]. exists out. split; [reflexivity|]. split; auto.
  intros i row Hi. destruct (H2 i row Hi) as (w & E & Hw). cbn [Nat.add] in *. exists w. split; auto.
  cbn [Nat.eqb] in Hw. destruct (Nat.eqb_spec i r) as [-> |D]; auto.
  rewrite Hr in Hi. injection Hi as <-. fold P in Hw.
  pose proof (reference_sig k (INR N) P (quantile_nonneg ppf a) HN' HP) as RS. unfold k in RS |- *.
  destruct Hw as [[-> Hw]|[-> Hw]]; [left|right]; (split; [reflexivity|]); tauto.
Qed.
(** No overflow for the sizes met in practice. *)
Lemma scaling_bound k N P : (1 <= P)%R -> (k * sqrt (2 / N) * P / 2 <= 640)%R -> (scaling k N P < 2 ^ 1024)%R.
Proof.
  intros HP HK. eapply Rle_lt_trans; [|apply exp_640]. unfold scaling.
  apply Rle_trans with (exp (k * sqrt (2 / N) * P / 2)).
  - pose proof (exp_pos (k * sqrt (2 / N) * P / 2)). apply (Rmult_le_reg_r P); [lra|].
    unfold Rdiv at 1. rewrite Rmult_assoc, Rinv_l by lra. nra.
  - destruct HK as [HK| ->]; [left; apply exp_increasing; auto|right; auto].
Qed.

(** The decision table *)
Lemma check_not_array t r a : whitenoise_check ppf peaks None t r a = Raise AssertionError.
Proof. reflexivity. Qed.
Lemma check_empty rows t r a : rows = [] \/ (exists rest, rows = [] :: rest) ->
  whitenoise_check ppf peaks (Some rows) t r a = Ok None.
Proof. intros [-> |[rest ->]]; reflexivity. Qed.
Lemma log_raise x e : math_log x = Raise e -> e = ValueError.
Proof. unfold math_log. destruct (Rlt_dec 0 x); congruence. Qed.
Lemma exp_raise x e : math_exp x = Raise e -> e = OverflowError.
Proof. unfold math_exp. destruct (Rlt_dec _ _); congruence. Qed.
Lemma apriori_raise rows idx N a e : apriori_loop ppf peaks idx rows N a = Raise e -> e <> AssertionError.
Proof.
  revert idx. induction rows as [|row rows IH]; intros idx E; cbn [apriori_loop] in E; [discriminate|].
  apply bind_raise in E as [E|(x & _ & E)]; [apply log_raise in E; congruence|].
  apply bind_raise in E as [E|(y & _ & E)]; [apply log_raise in E; congruence|].
  apply bind_raise in E as [E|(z & _ & E)].
  { unfold significance_apriori in E. apply bind_raise in E as [E|(w & _ & E)]; [apply exp_raise in E; congruence|discriminate]. }
  apply bind_raise in E as [E|(z' & _ & E)]; [eauto|discriminate].
Qed.
Lemma aposteriori_raise rows idx r s N a e : aposteriori_loop ppf peaks idx rows r s N a = Raise e -> e <> AssertionError.
Proof.
  revert idx. induction rows as [|row rows IH]; intros idx E; cbn [aposteriori_loop] in E; [discriminate|].
  apply bind_raise in E as [E|(x & _ & E)]; [apply log_raise in E; congruence|].
  apply bind_raise in E as [E|(y & _ & E)]; [destruct (negb _); apply log_raise in E; congruence|].
  apply bind_raise in E as [E|(z & _ & E)].
  { unfold significance_aposteriori in E. apply bind_raise in E as [E|(w & _ & E)]; [apply exp_raise in E; congruence|discriminate]. }
  apply bind_raise in E as [E|(z' & _ & E)]; [eauto|discriminate].
Qed.
Lemma check_valid x first rest t r a : 
  whitenoise_check ppf peaks (Some ((x :: first) :: rest)) t r a = Raise AssertionError <->
  ~ valid_args (zlen ((x :: first) :: rest)) t r a.
Proof.
  set (rows := (x :: first) :: rest). unfold whitenoise_check, rows. fold rows. unfold valid_args. destruct a as [a|].
  2:{ split; auto. intros _ ((? & ? & _) & _). discriminate. }
  destruct (Rlt_dec 0 a) as [A1|A1]; [destruct (Rlt_dec a 1) as [A2|A2]|].
  2,3: split; auto; intros _ ((y & Hy & Hy') & _); injection Hy as <-; lra.
  destruct (String.eqb t "apriori" || String.eqb t "aposteriori")%bool eqn:Et.
  2:{ split; auto. intros _ (_ & [-> | ->] & _); discriminate. }
  apply orb_true_iff in Et. rewrite !String.eqb_eq in Et.
  destruct r as [r|]. 2:{ split; auto. intros _ (_ & _ & y & Hy & _). discriminate. }
  destruct ((0 <? r) && (r <=? zlen rows))%bool eqn:Er.
  2:{ split; auto. intros _ (_ & _ & y & Hy & Hy'). injection Hy as <-. lia. }
  split.
  - intros E. exfalso. destruct (existsb (existsb is_nan) rows); [discriminate|].
    destruct (String.eqb t "apriori").
    + apply bind_raise in E as [E|(o & _ & E)]; [|discriminate]. eapply apriori_raise; eauto.
    + apply bind_raise in E as [E|(o & _ & E)]; [apply py_get_raise in E; discriminate|].
      apply bind_raise in E as [E|(o1 & _ & E)]; [apply log_raise in E; discriminate|].
      apply bind_raise in E as [E|(o2 & _ & E)]; [apply log_raise in E; discriminate|]. cbv zeta in E.
      apply bind_raise in E as [E|(o3 & _ & E)]; [apply exp_raise in E; discriminate|].
      apply bind_raise in E as [E|(o4 & _ & E)]; [apply exp_raise in E; discriminate|].
      apply bind_raise in E as [E|(o5 & _ & E)]; [|discriminate]. eapply aposteriori_raise; eauto.
  - intros HV. exfalso. apply HV. split; [exists a; auto|]. split; auto. exists r. split; auto. lia.
Qed.
Lemma check_nan rows t r a first : valid_args (zlen rows) t r a -> nth_error rows 0 = Some first -> first <> [] ->
  (exists row, In row rows /\ In Nan row) -> whitenoise_check ppf peaks (Some rows) t r a = Ok None.
Proof.
  intros ((y & -> & Hy1 & Hy2) & Ht & k & -> & Hk) Hf Hn (row & H1 & H2).
  destruct rows as [|f rest]; [discriminate|]. injection Hf as ->. destruct first as [|x0 first]; [contradiction|].
  unfold whitenoise_check. destruct (Rlt_dec 0 y); [|contradiction]. destruct (Rlt_dec y 1); [|contradiction].
  replace (String.eqb t "apriori" || String.eqb t "aposteriori")%bool with true by (destruct Ht as [-> | ->]; reflexivity).
  replace ((0 <? k) && (k <=? zlen ((x0 :: first) :: rest)))%bool with true by lia.
  replace (existsb (existsb is_nan) ((x0 :: first) :: rest)) with true; auto.
  symmetry. apply existsb_exists. exists row. split; auto. apply existsb_exists. exists Nan. auto.
Qed.

(** A row without energy *)
Lemma sum_squares_zero x : (forall y, In y x -> y = 0%R) -> sum_squares x = 0%R.
Proof.
  induction x as [|a x IH]; intros Hx; simpl; auto. rewrite IH by (intros; apply Hx; right; auto).
  rewrite (Hx a) by (left; auto). ring.
Qed.
Lemma apriori_loop_zero N a : (0 < N)%nat -> (INR N < 2 ^ 1024)%R ->
  forall rows idx, (forall row, In row rows -> length row = N) ->
  (forall row, In row rows -> (0 < sum_squares row)%R \/ sum_squares row = 0%R) ->
  (exists row, In row rows /\ sum_squares row = 0%R) ->
  apriori_loop ppf peaks idx rows (INR N) a = Raise ValueError.
Proof.
  intros HN HB. assert (HN' : (0 < INR N)%R) by (apply lt_0_INR; auto).
  induction rows as [|row rows IH]; intros idx HL HE (z & Hz & Ez); [contradiction|].
  cbn [apriori_loop]. rewrite mean_period_eq, energy_squares, (HL row) by (left; auto).
  set (T := samples_per_peak N (peaks row)).
  assert (HT : (0 < T)%R) by (apply spp_pos; auto).
  assert (HTB : (T < 2 ^ 1024)%R) by (eapply Rle_lt_trans; [apply spp_le|auto]).
  rewrite log_ok by auto. cbn [bind]. destruct (HE row (or_introl eq_refl)) as [Hp|H0].
  - rewrite log_ok by (apply Rdiv_lt_0_compat; auto). cbn [bind].
    destruct (apriori_spec ppf (sum_squares row) T (INR N) a Hp HT HN' HTB) as (b & Eb & _). rewrite Eb. cbn [bind].
    rewrite IH; [reflexivity| | |].
    + intros; apply HL; right; auto.
    + intros; apply HE; right; auto.
    + destruct Hz as [<- |Hz]; [lra|]. exists z. auto.
  - unfold math_log. rewrite H0. destruct (Rlt_dec 0 (0 / INR N)) as [L|L]; [|reflexivity].
    exfalso. unfold Rdiv in L. rewrite Rmult_0_l in L. lra.
Qed.
Lemma sum_squares_nonneg x : (0 <= sum_squares x)%R.
Proof. induction x as [|a x IH]; simpl; [lra|]. pose proof (Rle_0_sqr a). unfold Rsqr in *. lra. Qed.
Lemma check_zero_row rows N r a : (0 < N)%nat -> (INR N < 2 ^ 1024)%R -> Forall (fun row => length row = N) rows ->
  (exists row, In row rows /\ forall y, In y row -> y = 0%R) ->
  (0 < a < 1)%R -> 1 <= r <= zlen rows ->
  whitenoise_check ppf peaks (numbers rows) "apriori" (Some r) (Some a) = Raise ValueError.
Proof.
  intros HN HB HL (z & Hz & Ez) Ha Hr. rewrite (check_numbers rows N) by (auto; intros ->; contradiction).
  cbn [String.eqb Ascii.eqb eqb]. rewrite apriori_loop_zero; auto.
  - intros row Hrow. rewrite Forall_forall in HL. auto.
  - intros row _. destruct (sum_squares_nonneg row); auto.
  - exists z. split; auto. apply sum_squares_zero. auto.
Qed.
Lemma exp_over x : ~ (exp x < 2 ^ 1024)%R -> math_exp x = Raise OverflowError.
Proof. intros H. unfold math_exp. destruct (Rlt_dec _ _); [contradiction|reflexivity]. Qed.
Lemma check_overflow rows N r a ref : rows <> [] -> (0 < N)%nat -> (INR N < 2 ^ 1024)%R -> Forall (good N) rows ->
  (0 < a < 1)%R -> nth_error rows r = Some ref ->
  let k := quantile ppf a in let P := samples_per_peak N (peaks ref) in
  (2 ^ 1024 <= scaling k (INR N) P)%R ->
  whitenoise_check ppf peaks (numbers rows) "aposteriori" (Some (Z.of_nat r + 1)) (Some a) = Raise OverflowError.
Proof.
  intros H0 HN HB HG Ha Hr k P HS.
  assert (Hlt : (r < length rows)%nat) by (apply nth_error_Some; congruence).
  assert (HN' : (0 < INR N)%R) by (apply lt_0_INR; auto).
  assert (Href : good N ref) by (rewrite Forall_forall in HG; apply HG; eapply nth_error_In; eauto).
  destruct Href as [HL HE].
  assert (HP : (0 < P)%R) by (apply spp_pos; auto).
  assert (HPB : (P < 2 ^ 1024)%R) by (eapply Rle_lt_trans; [apply spp_le|auto]).
  rewrite (check_numbers rows N) by (auto using good_lengths; unfold zlen; lia). cbn [String.eqb Ascii.eqb eqb].
  replace (py_get rows (Z.of_nat r + 1 - 1)) with (Ok ref).
  2:{ symmetry. rewrite (py_get_nonneg rows (Z.of_nat r + 1 - 1) ref) by (unfold zlen; lia). f_equal.
      replace (Z.to_nat (Z.of_nat r + 1 - 1)) with r by lia. apply nth_error_nth. auto. }
  cbn [bind]. rewrite mean_period_eq, HL, energy_squares. fold P.
  rewrite log_ok by auto. cbn [bind]. rewrite log_ok by (apply Rdiv_lt_0_compat; auto). cbn [bind].
  rewrite exp_ok by (rewrite exp_ln by auto; auto). cbn [bind]. fold k.
  rewrite exp_over; [reflexivity|]. rewrite scaling_eq by auto. apply Rle_not_lt. auto.
Qed.
End Top.

(** A signal long enough, without peaks, makes the scaling factor overflow. *)
Import String.
Local Notation length := List.length.
Definition long_m : nat := Z.to_nat 2000.
Definition long_row : list R := repeat 1%R (2 * (long_m * long_m)).
Lemma quantile_one a : (quantile (fun _ => -1) a = 1)%R.
Proof.
  unfold quantile. rewrite Rabs_left by lra. lra.
Qed.
Lemma sum_squares_ones n : sum_squares (repeat 1%R n) = INR n.
Proof. induction n as [|n IH]; [reflexivity|]. rewrite S_INR. cbn [repeat sum_squares fold_right]. fold (sum_squares (repeat 1%R n)). rewrite IH. ring. Qed.
Lemma long_N : INR (2 * (long_m * long_m)) = 8000000%R.
Proof.
  assert (E : INR long_m = 2000%R) by (unfold long_m; rewrite INR_IZR_INZ, Z2Nat.id by lia; reflexivity).
  rewrite !mult_INR, E. cbn [INR]. lra.
Qed.
Lemma exp_2000 : (2 ^ 1024 * 8000000 <= exp 2000)%R.
Proof.
  assert (E : forall n, (2 ^ n <= exp (INR n))%R).
  { induction n as [|n IH]; [simpl; rewrite exp_0; lra|]. rewrite S_INR, exp_plus.
    pose proof (exp_ineq1 1 ltac:(lra)). assert (0 < 2 ^ n)%R by (apply pow_lt; lra). simpl. rewrite (Rmult_comm 2).
    apply Rmult_le_compat; lra. }
  specialize (E (Z.to_nat 2000)). rewrite INR_IZR_INZ, Z2Nat.id in E by lia. eapply Rle_trans; [|exact E].
  rewrite !pow_IZR, <- mult_IZR. apply IZR_le. vm_compute. discriminate.
Qed.
Lemma long_overflow : 
  whitenoise_check (fun _ => -1)%R (fun _ => 0%nat) (numbers [long_row]) "aposteriori"%string (Some 1) (Some (1/2)%R)
    = Raise OverflowError.
Proof.
  assert (HL : List.length long_row = (2 * (long_m * long_m))%nat) by apply repeat_length.
  pose proof long_N as HN.
  assert (Hn0 : (0 < 2 * (long_m * long_m))%nat).
  { apply INR_lt. rewrite HN. simpl. lra. }
  change (Some 1) with (Some (Z.of_nat 0 + 1)). apply check_overflow with (N := (2 * (long_m * long_m))%nat) (ref := long_row); auto.
  - discriminate.
  - rewrite HN. rewrite pow_IZR. apply IZR_lt. vm_compute. reflexivity.
  - constructor; auto. split; auto. unfold long_row. rewrite sum_squares_ones, HN. lra.
  - lra.
  - rewrite quantile_one. unfold samples_per_peak. rewrite HN. cbn [Nat.max INR].
    replace (8000000 / 1)%R with 8000000%R by lra. unfold scaling.
    assert (SQ : (sqrt (2 / 8000000) * 8000000 / 2 = 2000)%R).
    { replace (2 / 8000000)%R with ((1/2000) * (1/2000))%R by lra. rewrite sqrt_square by lra. lra. }
    replace (1 * sqrt (2 / 8000000) * 8000000 / 2)%R with 2000%R by lra.
    apply (Rmult_le_reg_r 8000000); [lra|]. unfold Rdiv. rewrite Rmult_assoc, Rinv_l by lra.
    rewrite Rmult_1_r. apply exp_2000.
Qed.

(** Raising the confidence level. *)
Lemma outside_mono k k' N E T : (k <= k')%R -> outside k' N E T -> outside k N E T.
Proof.
  unfold outside. intros Hk H. pose proof (sqrt_pos (2 * T / N)). nra.
Qed.
Lemma above_mono k k' N E T P : (0 < N)%R -> (0 < E)%R -> (0 < T)%R -> (0 < P)%R -> (k <= k')%R ->
  above_noise k' N E T (scaling k' N P) -> above_noise k N E T (scaling k N P).
Proof.
  unfold above_noise. intros HN HE HT HP Hk H.
  assert (L : forall q, (ln (E * T / (N * scaling q N P)) = ln (E * T / N) - ln (scaling q N P))%R).
  { intros q. pose proof (scaling_pos q N P HP).
    replace (E * T / (N * scaling q N P))%R with ((E * T / N) / scaling q N P)%R by (field; lra).
    unfold Rdiv at 1. rewrite ln_mult, ln_Rinv; auto.
    - apply Rdiv_lt_0_compat; auto. nra.
    - apply Rinv_0_lt_compat; auto. }
  rewrite L, ln_scaling in * by auto. pose proof (sqrt_pos (2 * T / N)). pose proof (sqrt_pos (2 / N)).
  assert (k * sqrt (2 / N) * P <= k' * sqrt (2 / N) * P)%R.
  { apply Rmult_le_compat_r; [lra|]. apply Rmult_le_compat_r; lra. }
  assert (k * sqrt (2 * T / N) <= k' * sqrt (2 * T / N))%R by (apply Rmult_le_compat_r; lra). lra.
Qed.
Lemma verdicts_mono rows (sig sig' : nat -> list R -> Prop) out out' :
  verdicts rows sig out -> verdicts rows sig' out' ->
  (forall i row, nth_error rows i = Some row -> sig' i row -> sig i row) ->
  forall i v, nth_error out' i = Some (v, 1) -> nth_error out i = Some (v, 1).
Proof.
  intros [H1 H2] [H1' H2'] HM i v E.
  assert (Hi : (i < length rows)%nat).
  { replace (length rows) with (length (map fst out')) by (rewrite H1', map_length, seq_length; auto).
    rewrite map_length. apply nth_error_Some. congruence. }
  destruct (nth_error rows i) as [row|] eqn:Er; [|apply nth_error_None in Er; lia].
  destruct (H2' i row Er) as (w' & E' & Hw'). destruct (H2 i row Er) as (w & Ew & Hw). rewrite E in E'. injection E' as -> <-.
  rewrite Ew. destruct Hw' as [[_ Hs]|[D _]]; [|discriminate]. destruct Hw as [[-> _]|[_ D]]; auto.
  exfalso. apply D. eapply HM; eauto.
Qed.
Lemma check_confidence ppf peaks rows N r a a' test out out' : rows <> [] -> (0 < N)%nat -> (INR N < 2 ^ 1024)%R ->
  Forall (good N) rows -> (0 < a < 1)%R -> (0 < a' < 1)%R ->
  (0 < quantile ppf a <= quantile ppf a')%R ->
  whitenoise_check ppf peaks (numbers rows) test r (Some a) = Ok (Some out) ->
  whitenoise_check ppf peaks (numbers rows) test r (Some a') = Ok (Some out') ->
  forall i v, nth_error out' i = Some (v, 1) -> nth_error out i = Some (v, 1).
Proof.
  intros H0 HN HB HG Ha Ha' [Hk0 Hk] E E'.
  assert (HN' : (0 < INR N)%R) by (apply lt_0_INR; auto).
  assert (HV : valid_args (zlen rows) test r (Some a)).
  { destruct (Classical_Prop.classic (valid_args (zlen rows) test r (Some a))) as [|D]; auto. exfalso.
    unfold numbers in E. destruct rows as [|[|x f] rest]; [contradiction| |].
    - inversion HG as [|? ? [HL _] _]; cbn [List.length] in HL; lia.
    - cbn [map] in E. rewrite (proj2 (check_valid ppf peaks (Fin x) (map Fin f) (map (map Fin) rest) test r (Some a))) in E;
        [discriminate|].
      change ((Fin x :: map Fin f) :: map (map Fin) rest) with (map (map Fin) ((x :: f) :: rest)).
      rewrite zlen_map. exact D. }
  destruct HV as (_ & Ht & k & -> & Hkr). destruct Ht as [-> | ->].
  - destruct (check_apriori ppf peaks rows N k a H0 HN HB HG Ha Hkr) as (o & Eo & V). rewrite E in Eo. injection Eo as <-.
    destruct (check_apriori ppf peaks rows N k a' H0 HN HB HG Ha' Hkr) as (o' & Eo' & V'). rewrite E' in Eo'. injection Eo' as <-.
    eapply verdicts_mono; eauto. intros i row _. cbv beta. apply outside_mono. lra.
  - replace k with (Z.of_nat (Z.to_nat (k - 1)) + 1) in E, E' by lia.
    set (r := Z.to_nat (k - 1)) in *. assert (Hr : (r < length rows)%nat) by (unfold zlen in Hkr; lia).
    destruct (nth_error rows r) as [ref|] eqn:Er; [|apply nth_error_None in Er; lia].
    assert (HP : (0 < samples_per_peak N (peaks ref))%R) by (apply spp_pos; auto).
    assert (S1 : (scaling (quantile ppf a) (INR N) (samples_per_peak N (peaks ref)) < 2 ^ 1024)%R).
    { apply Rnot_le_lt. intros C. rewrite (check_overflow ppf peaks rows N r a ref) in E by auto. discriminate. }
    assert (S2 : (scaling (quantile ppf a') (INR N) (samples_per_peak N (peaks ref)) < 2 ^ 1024)%R).
    { apply Rnot_le_lt. intros C. rewrite (check_overflow ppf peaks rows N r a' ref) in E' by auto. discriminate. }
    destruct (check_aposteriori ppf peaks rows N r a ref H0 HN HB HG Ha Er S1) as (o & Eo & V). rewrite E in Eo. injection Eo as <-.
    destruct (check_aposteriori ppf peaks rows N r a' ref H0 HN HB HG Ha' Er S2) as (o' & Eo' & V'). rewrite E' in Eo'. injection Eo' as <-.
    eapply verdicts_mono; eauto. intros i row Hi. cbv beta. destruct (Nat.eqb i r).
    + intros [_ H4]. split; auto.
    + rewrite Forall_forall in HG. destruct (HG row (nth_error_In _ _ Hi)). apply above_mono; auto. apply spp_pos; auto.
Qed.

(** ** The rescaling imf *)
Lemma check_reference ppf peaks rows N r a ref out : rows <> [] -> (0 < N)%nat -> (INR N < 2 ^ 1024)%R ->
  Forall (good N) rows -> (0 < a < 1)%R -> nth_error rows r = Some ref -> (0 < quantile ppf a)%R ->
  whitenoise_check ppf peaks (numbers rows) "aposteriori" (Some (Z.of_nat r + 1)) (Some a) = Ok (Some out) ->
  nth_error out r = Some (Z.of_nat r + 1, if Rlt_dec 4 (samples_per_peak N (peaks ref)) then 1 else 0).
Proof.
  intros H0 HN HB HG Ha Hr Hk E.
  assert (HS : (scaling (quantile ppf a) (INR N) (samples_per_peak N (peaks ref)) < 2 ^ 1024)%R).
  { apply Rnot_le_lt. intros C. rewrite (check_overflow ppf peaks rows N r a ref) in E by auto. discriminate. }
  destruct (check_aposteriori ppf peaks rows N r a ref H0 HN HB HG Ha Hr HS) as (o & Eo & _ & V).
  rewrite E in Eo. injection Eo as <-. destruct (V r ref Hr) as (w & -> & Hw). rewrite Nat.eqb_refl in Hw.
  do 2 f_equal. destruct (Rlt_dec _ _) as [L|L]; destruct Hw as [[-> Hw]|[-> Hw]]; auto; exfalso; [apply Hw; auto|tauto].
Qed.
Lemma check_short_period ppf peaks rows N r a ref out : rows <> [] -> (0 < N)%nat -> (INR N < 2 ^ 1024)%R ->
  Forall (good N) rows -> (0 < a < 1)%R -> nth_error rows r = Some ref -> (N <= 4 * peaks ref)%nat ->
  whitenoise_check ppf peaks (numbers rows) "aposteriori" (Some (Z.of_nat r + 1)) (Some a) = Ok (Some out) ->
  nth_error out r = Some (Z.of_nat r + 1, 0).
Proof.
  intros H0 HN HB HG Ha Hr Hk E.
  assert (HS : (scaling (quantile ppf a) (INR N) (samples_per_peak N (peaks ref)) < 2 ^ 1024)%R).
  { apply Rnot_le_lt. intros C. rewrite (check_overflow ppf peaks rows N r a ref) in E by auto. discriminate. }
  destruct (check_aposteriori ppf peaks rows N r a ref H0 HN HB HG Ha Hr HS) as (o & Eo & _ & V).
  rewrite E in Eo. injection Eo as <-. destruct (V r ref Hr) as (w & -> & Hw). rewrite Nat.eqb_refl in Hw.
  do 2 f_equal. destruct Hw as [[-> [_ Hw]]|[-> Hw]]; auto. exfalso. unfold samples_per_peak in Hw.
  assert (HM : (1 <= Nat.max 1 (peaks ref))%nat) by lia.
  assert (HQ : (INR N <= 4 * INR (Nat.max 1 (peaks ref)))%R).
  { replace 4%R with (INR 4) by (simpl; lra). rewrite <- mult_INR. apply le_INR. lia. }
  assert (HM' : (0 < INR (Nat.max 1 (peaks ref)))%R) by (apply lt_0_INR; lia).
  apply (Rmult_lt_compat_r (INR (Nat.max 1 (peaks ref)))) in Hw; auto.
  unfold Rdiv in Hw. rewrite Rmult_assoc, Rinv_l in Hw by lra. lra.
Qed.
Lemma small_bound n : (Z.of_nat n < 1000) -> (INR n < 2 ^ 1024)%R.
Proof.
  intros H. rewrite INR_IZR_INZ, pow_IZR. apply IZR_lt. eapply Z.lt_trans; [exact H|]. vm_compute. reflexivity.
Qed.
Lemma single_verdict row (sig : nat -> list R -> Prop) out : verdicts [row] sig out -> exists v, out = [(1, v)].
Proof.
  intros [H1 _]. destruct out as [|[k v] [|? ?]]; try discriminate. cbn in H1. injection H1 as ->. eauto.
Qed.
Lemma small_scaling N p : (1 <= p)%nat -> (2 <= N)%nat -> (samples_per_peak N p <= 5)%R -> (1 <= samples_per_peak N p)%R ->
  forall k, (0 <= k <= 2)%R -> (scaling k (INR N) (samples_per_peak N p) < 2 ^ 1024)%R.
Proof.
  intros Hp HN H5 H1 k Hk. apply scaling_bound; auto.
  assert (Q : (sqrt (2 / INR N) <= 1)%R).
  { replace 1%R with (sqrt 1) by apply sqrt_1. apply sqrt_le_1_alt. apply (le_INR 2) in HN. simpl in HN.
    apply (Rmult_le_reg_r (INR N)); [lra|]. unfold Rdiv. rewrite Rmult_assoc, Rinv_l by lra. lra. }
  pose proof (sqrt_pos (2 / INR N)). assert (k * sqrt (2 / INR N) <= 2)%R by nra.
  assert (0 <= k * sqrt (2 / INR N))%R by nra. nra.
Qed.
Lemma spp_5_0 : samples_per_peak 5 0 = 5%R.
Proof. unfold samples_per_peak; simpl; lra. Qed.
Lemma reference_significant : exists (ppf : R -> R) (peaks : list R -> nat) row,
  good 5 row /\
  whitenoise_check ppf peaks (numbers [row]) "aposteriori" (Some 1) (Some (19/20)%R) = Ok (Some [(1, 1)]).
Proof.
  exists (fun _ => -1)%R, (fun _ => 0%nat), [1; 0; 0; 0; 0]%R.
  assert (G : good 5 [1; 0; 0; 0; 0]%R) by (split; [reflexivity|unfold sum_squares; simpl; lra]).
  split; auto. set (row := [1; 0; 0; 0; 0]%R) in *. change (Some 1) with (Some (Z.of_nat 0 + 1)).
  destruct (check_aposteriori (fun _ => -1)%R (fun _ => 0%nat) [row] 5 0 (19/20) row) as (o & Eo & V);
    [discriminate|lia|apply small_bound; lia|constructor; auto|lra|reflexivity| |].
  - rewrite quantile_one. change (samples_per_peak 5 0) with (samples_per_peak 5 1).
    assert (samples_per_peak 5 1 = 5)%R by (unfold samples_per_peak; simpl; lra).
    apply small_scaling; try lia; lra.
  - destruct (single_verdict _ _ _ V) as [v ->]. rewrite Eo. do 4 f_equal.
    assert (HR : nth_error [(1, v)] 0 = Some (Z.of_nat 0 + 1, if Rlt_dec 4 (samples_per_peak 5 0) then 1 else 0)).
    { apply (check_reference (fun _ => -1)%R (fun _ => 0%nat) [row] 5 0 (19/20) row); auto.
      - discriminate.
      - lia.
      - apply small_bound; lia.
      - lra.
      - rewrite quantile_one. lra. }
    rewrite spp_5_0 in HR. destruct (Rlt_dec 4 5); [|lra]. injection HR as ->. reflexivity.
Qed.
Lemma reference_not_significant :
  whitenoise_check (fun _ => -2)%R (fun _ => 2%nat) (numbers [[1; -1; 1; -1]%R]) "aposteriori" (Some 1) (Some (19/20)%R)
    = Ok (Some [(1, 0)]).
Proof.
  set (row := [1; -1; 1; -1]%R). change (Some 1) with (Some (Z.of_nat 0 + 1)).
  assert (G : good 4 row) by (split; [reflexivity|unfold row, sum_squares; simpl; lra]).
  destruct (check_aposteriori (fun _ => -2)%R (fun _ => 2%nat) [row] 4 0 (19/20) row) as (o & Eo & V);
    [discriminate|lia|apply small_bound; lia|constructor; auto|lra|reflexivity| |].
  - assert (samples_per_peak 4 2 = 2)%R by (unfold samples_per_peak; simpl; lra).
    apply small_scaling; try lia; try lra. unfold quantile. rewrite Rabs_left by lra. lra.
  - destruct (single_verdict _ _ _ V) as [v ->]. rewrite Eo. do 4 f_equal.
    assert (HR : nth_error [(1, v)] 0 = Some (Z.of_nat 0 + 1, 0)).
    { apply (check_short_period (fun _ => -2)%R (fun _ => 2%nat) [row] 4 0 (19/20) row); auto.
      - discriminate.
      - apply small_bound; lia.
      - lra.
      - lia. }
    injection HR as ->. reflexivity.
Qed.
