(** * JitProofs: the compiled variant agrees with EMD. *)
From Verif Require Import PyFacts QcFacts Emd Spec ExtremaSpec ExtremaProofs PrepareProofs PreparePlan
  EmdProofs EmdExact EmdStop EmdFlat EmdSimple Jit JitSpec.
From Coq Require Import Lia ZifyBool ZifyNat.
Open Scope Z_scope.

(** ** Extrema *)
Lemma plateau_loop_spec (d : list Qc) runs imax imin :
  plateau_loop d runs imax imin =
  let! d_before := py_take d (map (fun r => fst r - 1) runs) in
  let! d_after := py_take d (map snd runs) in
  let midpoints := map (fun r => round_half (snd r + fst r)) runs in
  Ok (imax ++ mask midpoints (map2 (fun b a => nltb n0 b && nltb a n0) d_before d_after),
      imin ++ mask midpoints (map2 (fun b a => nltb b n0 && nltb n0 a) d_before d_after)).
Proof.
  revert imax imin. induction runs as [|[a b] runs IH]; intros imax imin.
  - cbn. rewrite !app_nil_r. reflexivity.
  - cbn [plateau_loop map fst snd]. unfold py_take in *. cbn [mapM].
    destruct (py_get d (a - 1)) as [x|e] eqn:Ex; [|reflexivity]. cbn [bind].
    destruct (py_get d b) as [y|e'] eqn:Ey.
    + cbn [bind].
      assert (G : forall p q, plateau_loop d runs p q = Raise IndexError \/
                 exists l l', mapM (py_get d) (map (fun r => fst r - 1) runs) = Ok l /\ mapM (py_get d) (map snd runs) = Ok l').
      { intros p q. rewrite IH. destruct (mapM _ (map (fun r => fst r - 1) runs)) as [l|e] eqn:El.
        - destruct (mapM _ (map snd runs)) as [l'|e] eqn:El'; [right; eauto|left].
          cbn [bind]. apply mapM_raise in El' as (z & _ & El'). apply py_get_raise in El' as ->. reflexivity.
        - left. cbn [bind]. apply mapM_raise in El as (z & _ & El'). apply py_get_raise in El' as ->. reflexivity. }
      rewrite !IH.
      destruct (mapM _ (map (fun r => fst r - 1) runs)) as [l|e] eqn:El; cbn [bind];
        [|destruct (_ && _); [|destruct (_ && _)]; reflexivity].
      destruct (mapM _ (map snd runs)) as [l'|e] eqn:El'; cbn [bind];
        [|destruct (_ && _); [|destruct (_ && _)]; reflexivity].
      cbn [map2 mask]. rewrite (Z.add_comm b a).
      destruct (nltb n0 x && nltb y n0) eqn:E1.
      * replace (nltb x n0 && nltb n0 y) with false; [rewrite <- app_assoc; reflexivity|].
        symmetry. num_qc. apply andb_true_iff in E1 as [E1 _]. apply Qc_ltb_lt in E1.
        destruct (Qc_ltb x 0) eqn:E2; [|reflexivity]. apply Qc_ltb_lt in E2.
        exfalso. exact (Qclt_not_le _ _ E2 (Qclt_le_weak _ _ E1)).
      * destruct (nltb x n0 && nltb n0 y); [rewrite <- app_assoc; reflexivity|reflexivity].
    + apply py_get_raise in Ey as ->. cbn [bind].
      destruct (mapM _ (map (fun r => fst r - 1) runs)) as [l|e] eqn:El; cbn [bind]; [reflexivity|].
      apply mapM_raise in El as (z & _ & El'). apply py_get_raise in El' as ->. reflexivity.
Qed.
Lemma mask_nonempty {X} (l : list X) m : length l = length m ->
  (0 <? zlen (mask l m)) = existsb (fun b => b) m.
Proof.
  revert m. induction l as [|x l IH]; destruct m as [|[|] m]; intros E; try discriminate; try reflexivity; cbn [mask existsb].
  simpl in E. apply IH. lia.
Qed.
Lemma jit_idx (S : list Qc) : jit_extrema_idx S = extrema_idx S.
Proof.
  unfold jit_extrema_idx, extrema_idx. cbv zeta. destruct (existsb _ _); [|reflexivity].
  set (runs := drop_last_run _ _). destruct runs as [|r runs]; [reflexivity|]. set (rs := r :: runs).
  rewrite plateau_loop_spec. destruct (py_take _ (map (fun r => fst r - 1) rs)) as [l|] eqn:El; [|reflexivity].
  cbn [bind]. destruct (py_take _ (map snd rs)) as [l'|] eqn:El'; [|reflexivity]. cbn [bind]. cbn [app].
  apply mapM_ok_length in El. apply mapM_ok_length in El'. rewrite map_length in El, El'.
  rewrite !mask_nonempty by (rewrite map_length, map2_length_eq by congruence; congruence). reflexivity.
Qed.
Lemma jit_find (S : list Qc) T : length T = length S ->
  exists e e' M m, find_extrema Simple T S = Ok e /\ jit_find_extrema Simple T S = Ok e' /\
    max_pos e' = map Qc_ofZ M /\ min_pos e' = map Qc_ofZ m /\
    max_pos e = map (sample T) M /\ min_pos e = map (sample T) m /\
    max_val e' = max_val e /\ min_val e' = min_val e /\ indzer e' = indzer e.
Proof.
  intros HT. destruct (extrema_idx_spec S) as (M & m & E & I1 & I2 & HM & Hm).
  assert (RM : forall i, In i M -> 0 <= i < zlen S) by (intros i Hi; apply HM, rep_range in Hi; lia).
  assert (Rm : forall i, In i m -> 0 <= i < zlen S) by (intros i Hi; apply Hm, rep_range in Hi; lia).
  assert (HT' : zlen T = zlen S) by (unfold zlen; congruence).
  unfold find_extrema, find_extrema_simple, jit_find_extrema, jit_find_extrema_simple. rewrite jit_idx, E. cbn [bind].
  rewrite !take_samples by (rewrite ?HT'; auto). cbn [bind].
  eexists _, _, M, m. do 2 (split; [reflexivity|]). cbn. repeat split; auto.
Qed.
Lemma jit_find_tz (S : list Qc) m : jit_find_extrema m (tz (length S)) S = find_extrema m (tz (length S)) S.
Proof.
  destruct m; [|reflexivity|reflexivity]. destruct (extrema_idx_spec S) as (M & m & E & I1 & I2 & HM & Hm).
  assert (RM : forall i, In i M -> 0 <= i < zlen S) by (intros i Hi; apply HM, rep_range in Hi; lia).
  assert (Rm : forall i, In i m -> 0 <= i < zlen S) by (intros i Hi; apply Hm, rep_range in Hi; lia).
  assert (HT' : zlen (tz (length S)) = zlen S) by (unfold zlen; rewrite tz_length; auto).
  unfold find_extrema, find_extrema_simple, jit_find_extrema, jit_find_extrema_simple. rewrite jit_idx, E. cbn [bind].
  rewrite !take_samples by (rewrite ?HT'; auto). cbn [bind]. rewrite !map_sample_tz by auto. reflexivity.
Qed.

(** ** Mirrored points *)
Lemma dedupe_same (l : list (Qc * Qc)) : (forall p q, In p l -> In q l -> fst p = fst q -> p = q) ->
  dedupe_first l = dedupe l.
Proof.
  induction l as [|p l IH]; intros HF; [reflexivity|]. destruct l as [|q l]; [reflexivity|].
  assert (IH' : dedupe_first (q :: l) = dedupe (q :: l)).
  { apply IH. intros a b Ha Hb. apply HF; right; auto. }
  cbn [dedupe_first dedupe_after] in *. change (dedupe (p :: q :: l)) with
    (if neqb (fst q) (fst p) then dedupe (q :: l) else p :: dedupe (q :: l)).
  rewrite <- IH'. destruct (neqb (fst q) (fst p)) eqn:E; [|reflexivity].
  cbn [neqb QcNum] in E. apply Qc_eqb_eq in E. rewrite (HF p q); simpl; auto.
Qed.
Lemma dedupe_lay S n cl l M cr r : M <> [] -> left_ok n cl M l -> right_ok n cr M r ->
  dedupe_first (map (point S) (lay cl l M cr r)) = dedupe (map (point S) (lay cl l M cr r)).
Proof.
  intros Hne HL HR. apply dedupe_same. intros p q Hp Hq E.
  apply in_map_iff in Hp as ((z & i) & <- & Hp). apply in_map_iff in Hq as ((z' & j) & <- & Hq).
  unfold point in *. cbn [fst snd] in *. apply Qc_ofZ_inj in E. subst z'.
  rewrite (lay_fun n cl l M cr r z i j); auto.
Qed.
Lemma jit_points (S : list Qc) e nb : 1 <= nb -> find_extrema Simple (tz (length S)) S = Ok e -> 2 < ext_no e ->
  jit_prepare_points Simple nb (tz (length S)) S e = prepare_points Simple nb (tz (length S)) S e.
Proof.
  intros Hnb Ee He. set (n := length S).
  destruct (find_extrema_simple_spec (tz n) S (tz_length _)) as (e' & M & m & E & E1 & E2 & E3 & E4 & _ & HM & Hm & R1 & R2).
  change (find_extrema_simple (tz n) S) with (find_extrema Simple (tz n) S) in E. unfold n in E. rewrite Ee in E. injection E as <-.
  fold n in E1, E2, E3, E4.
  assert (HrM : forall x, In x M -> 0 <= x < Z.of_nat n - 1) by (intros x Hx; apply R1, rep_range in Hx; unfold zlen in Hx; lia).
  assert (Hrm : forall x, In x m -> 0 <= x < Z.of_nat n - 1) by (intros x Hx; apply R2, rep_range in Hx; unfold zlen in Hx; lia).
  rewrite map_sample_tz in E1 by (intros x Hx; apply HrM in Hx; lia).
  rewrite map_sample_tz in E3 by (intros x Hx; apply Hrm in Hx; lia).
  assert (Hd : forall x, In x M -> In x m -> False) by (intros x; rewrite R1, R2; intros Ha Hb; exact (rep_disjoint S x Ha Hb)).
  unfold ext_no in He. rewrite E1, E3, !zlen_map in He.
  assert (A1 : forall i j, In i M -> In j M -> i < j -> exists k, In k m /\ i < k < j).
  { intros i j. rewrite !R1. intros Hi Hj Hij. destruct (alternate S 1 i j (or_introl eq_refl) Hi Hj Hij) as (k & Hk & Hb).
    exists k. rewrite R2. auto. }
  assert (A2 : forall i j, In i m -> In j m -> i < j -> exists k, In k M /\ i < k < j).
  { intros i j. rewrite !R2. intros Hi Hj Hij. destruct (alternate S (-1) i j (or_intror eq_refl) Hi Hj Hij) as (k & Hk & Hb).
    exists k. rewrite R1. auto. }
  pose proof (interleave_count M m HM Hm A1) as C1. pose proof (interleave_count m M Hm HM A2) as C2.
  assert (HnM : M <> []) by (intros ->; unfold zlen in *; simpl in *; lia).
  assert (Hnm : m <> []) by (intros ->; unfold zlen in *; simpl in *; lia).
  destruct (left_side n S M m nb eq_refl HnM Hnm HM Hm HrM Hrm Hd Hnb) as
    (lmax0 & lmin0 & c0 & cl & lmax & lmin & F1 & F2 & L1 & L2 & _).
  destruct (right_side n S M m nb eq_refl HnM Hnm HM Hm HrM Hrm Hd Hnb) as
    (rmax0 & rmin0 & c1 & cr & rmax & rmin & F3 & F4 & Q1 & Q2 & _).
  unfold prepare_points, prepare_points_simple, jit_prepare_points, jit_prepare_points_simple. cbn zeta.
  rewrite E1, E3, !map_map. cbn [ntrunc QcNum].
  assert (Et : forall l, map (fun x => Qc_trunc (Qc_ofZ x)) l = l).
  { intros l. rewrite <- (map_id l) at 2. apply map_ext. intros. apply Qc_trunc_ofZ. }
  rewrite !Et, F1. cbn [bind]. rewrite F3. cbn [bind]. rewrite F2. cbn [bind]. rewrite F4. cbn [bind].
  assert (Dn : forall c M l, left_ok (Z.of_nat n) c M l -> forall i, In i l -> 0 <= i < Z.of_nat n)
    by (intros u M' l Hl; apply (dec_rng _ _ (left_dec _ _ _ _ Hl))).
  assert (Dr : forall c M l, right_ok (Z.of_nat n) c M l -> forall i, In i l -> 0 <= i < Z.of_nat n)
    by (intros u M' l Hl; apply (dec_rng _ _ (right_dec _ _ _ _ Hl))).
  rewrite !assemble_lay; eauto;
    try (intros i Hi; apply HrM in Hi; lia); try (intros i Hi; apply Hrm in Hi; lia). cbn [bind].
  rewrite !(dedupe_lay S (Z.of_nat n)); auto.
Qed.

(** ** Splines *)
Lemma invdot3_solve (m11 m12 m13 m21 m22 m23 m31 m32 m33 v1 v2 v3 : Qc) :
  invdot3 m11 m12 m13 m21 m22 m23 m31 m32 m33 v1 v2 v3 = solve3 m11 m12 m13 m21 m22 m23 m31 m32 m33 v1 v2 v3.
Proof.
  unfold invdot3, solve3. cbv zeta. destruct (is0 _) eqn:E; [reflexivity|].
  unfold is0, det3 in *. num_qc. apply Qc_eqb_neq in E. f_equal. f_equal; [f_equal|]; field; exact E.
Qed.
Lemma jit_coeffs (x0 x1 x2 y0 y1 y2 : Qc) : jit_spline3_coeffs x0 x1 x2 y0 y1 y2 = spline3_coeffs x0 x1 x2 y0 y1 y2.
Proof. unfold jit_spline3_coeffs, spline3_coeffs. cbv zeta. rewrite invdot3_solve. reflexivity. Qed.
Lemma jit_spline3 (pts : list (Qc * Qc)) T : jit_cubic_spline_3pts pts T = cubic_spline_3pts pts T.
Proof.
  destruct pts as [|[x0 y0] [|[x1 y1] [|[x2 y2] [|? ?]]]]; try reflexivity.
  cbn [jit_cubic_spline_3pts cubic_spline_3pts]. rewrite jit_coeffs. reflexivity.
Qed.
Lemma jit_spline (spl : spline_oracle Qc) kind T ext : supported kind ->
  jit_spline_points spl kind T ext = spline_points spl kind T ext.
Proof.
  unfold supported, jit_spline_points, spline_points. destruct (time_window T ext) as [t|]; [|reflexivity]. cbn [bind].
  destruct (parse_kind kind) as [[]|]; try reflexivity; try contradiction. rewrite jit_spline3. reflexivity.
Qed.

(** ** The stopping test *)
Lemma Qc_sq_nonneg (x : Qc) : (0 <= x * x)%Qc.
Proof.
  destruct (Qclt_le_dec x 0) as [L|L].
  - replace (x * x)%Qc with ((-x) * (-x))%Qc by ring. assert (0 <= -x)%Qc by qclra.
    pose proof (Qcmult_le_compat_r 0 (-x) (-x) H H) as G. rewrite Qcmult_0_l in G. exact G.
  - pose proof (Qcmult_le_compat_r 0 x x L L) as G. rewrite Qcmult_0_l in G. exact G.
Qed.
Lemma filter_exists {X} (P Q : X -> bool) l m :
  (0 <? zlen (filter P l) + zlen (filter Q m)) = existsb P l || existsb Q m.
Proof.
  assert (G : forall (P : X -> bool) l, zlen (filter P l) = 0 \/ 0 < zlen (filter P l)) by (intros; unfold zlen; lia).
  assert (G' : forall (P : X -> bool) l, (0 <? zlen (filter P l)) = existsb P l).
  { clear. intros P l. induction l as [|x l IH]; [reflexivity|]. cbn [filter existsb]. destruct (P x); cbn [orb].
    - rewrite zlen_cons. unfold zlen. lia.
    - exact IH. }
  rewrite <- !G'. unfold zlen. lia.
Qed.
Lemma not_constant (m : detection) (T imf : list Qc) e : length T = length imf ->
  find_extrema m T imf = Ok e -> 2 < ext_no e -> (2 <= length imf)%nat -> forall v, ~ (forall x, In x imf -> x = v).
Proof.
  intros HT E He HL v HC. assert (Hm : m <> OtherDetection) by (intros ->; discriminate).
  assert (Er : imf = repeat v (length imf)).
  { clear -HC. induction imf as [|x imf IH]; [reflexivity|]. cbn [length repeat].
    rewrite <- IH by (intros; apply HC; right; auto). f_equal. apply HC. left; auto. }
  destruct (constant_find m T v (length imf) Hm HT HL) as (e' & E' & H1 & H2). rewrite <- Er, E in E'. injection E' as ->.
  unfold ext_no in He. rewrite H1, H2 in He. cbn in He. lia.
Qed.
Lemma jit_check strict c (new old : list Qc) eM em : (forall v, ~ (forall x, In x old -> x = v)) ->
  jit_check_imf strict c new old eM em = check_imf c new old eM em.
Proof.
  intros HN. unfold jit_check_imf, check_imf. rewrite filter_exists. destruct (_ || _); [reflexivity|].
  destruct (nltb _ _); [reflexivity|]. cbv zeta.
  destruct (np_max old) as [mx|] eqn:Emx; [|reflexivity]. destruct (np_min old) as [mn|] eqn:Emn; [|reflexivity]. cbn [bind].
  apply np_max_spec in Emx as [_ Hmx]. apply np_min_spec in Emn as [_ Hmn].
  assert (R : is0 (nsub mx mn) = false).
  { unfold is0. num_qc. apply Qc_eqb_neq. intros E. apply (proj1 (Qc_minus_eq0 _ _)) in E. rewrite E in Hmx. apply (HN mn).
    intros x Hx. apply Qcle_antisym; auto. }
  rewrite R, andb_false_r.
  assert (R2 : is0 (nsum (map (fun x : Qc => nmul x x) old)) = false).
  { unfold is0. rewrite nsum_total. num_qc. apply Qc_eqb_neq. intros E. apply (HN 0%Qc). clear -E.
    assert (G : forall l : list Qc, (0 <= total (map (fun x => x * x)%Qc l))%Qc).
    { induction l as [|x l IH]; simpl; [apply Qcle_refl|]. pose proof (Qc_sq_nonneg x). qclra. }
    induction old as [|x old IH]; [contradiction|]. simpl in E. pose proof (G old). pose proof (Qc_sq_nonneg x).
    intros y [<- |Hy].
    - assert (x * x = 0)%Qc by (apply Qcle_antisym; qclra). apply Qcmult_integral in H1. tauto.
    - apply IH; auto. apply Qcle_antisym; qclra. }
  rewrite R2, andb_false_r. reflexivity.
Qed.

(** ** One sift, and the loops *)
Lemma assign_sub {A} `{Num A} (x y : list A) : (2 <= length x)%nat ->
  (let! mean := assign_all (length x) y in Ok (vsub x mean)) = broadcast2 nsub x y.
Proof.
  intros HL. unfold assign_all, broadcast2. destruct (Nat.eqb (length x) (length y)); [reflexivity|].
  destruct x as [|a [|b x]]; [simpl in HL; lia|simpl in HL; lia|]. destruct y as [|u [|v y]]; [reflexivity| |reflexivity].
  cbn [bind]. f_equal. generalize (a :: b :: x). clear. intros l. unfold vsub.
  induction l as [|z l IH]; [reflexivity|]. cbn [length repeat map2 map]. rewrite IH. reflexivity.
Qed.

Section Agree.
Variable spl : spline_oracle Qc.
Variable strict : bool.
Variable c : emd_config Qc.
Variable T : list Qc.
Hypothesis HT : (2 <= length T)%nat.
Hypothesis Hkind : supported (spline_kind c).
Hypothesis Hmode : extrema_detection c = Simple -> T = tz (length T) /\ 1 <= nbsym c.

Lemma agree_find x : length x = length T ->
  jit_find_extrema (extrema_detection c) T x = find_extrema (extrema_detection c) T x.
Proof.
  intros HL. destruct (extrema_detection c) eqn:E; try reflexivity. destruct (Hmode eq_refl) as [-> _].
  rewrite ?tz_length in *. rewrite <- HL. apply jit_find_tz.
Qed.
Lemma agree_points x e : length x = length T -> find_extrema (extrema_detection c) T x = Ok e -> 2 < ext_no e ->
  jit_prepare_points (extrema_detection c) (nbsym c) T x e = prepare_points (extrema_detection c) (nbsym c) T x e.
Proof.
  intros HL E He. destruct (extrema_detection c) eqn:Ed; try reflexivity. destruct (Hmode eq_refl) as [ET Hnb].
  clear Hmode HT. rewrite <- HL in ET. subst T. apply jit_points; auto.
Qed.
Lemma agree_step x e : length x = length T -> find_extrema (extrema_detection c) T x = Ok e -> 2 < ext_no e ->
  jit_sift_step spl c T x = sift_step spl c T x.
Proof.
  intros HL E He. unfold jit_sift_step, sift_step, extract_max_min_extrema, extract_max_min_spline.
  rewrite agree_find, E by auto. cbn [bind]. unfold ext_no in He.
  destruct (Z.ltb_spec (zlen (max_pos e) + zlen (min_pos e)) 3); [lia|].
  rewrite (agree_points x e) by auto. destruct (prepare_points _ _ _ _ _) as [[eM em]|]; [|reflexivity]. cbn [bind].
  rewrite !jit_spline by auto. destruct (spline_points spl _ T eM) as [u|]; [|reflexivity]. cbn [bind].
  destruct (spline_points spl _ T em) as [v|]; [|reflexivity]. cbn [bind].
  destruct (broadcast2 nadd u v) as [s|]; [|reflexivity]. cbn [bind].
  rewrite <- assign_sub by lia. destruct (assign_all _ _); reflexivity.
Qed.
Lemma agree_sift fuel n n_h ext x : length x = length T ->
  jit_sift spl fuel strict c T n n_h ext x = sift spl fuel c T n n_h ext x.
Proof.
  revert n n_h ext x. induction fuel as [|fuel IH]; intros n n_h ext x HL; [reflexivity|].
  cbn [jit_sift sift]. destruct (_ <=? _); [reflexivity|]. rewrite agree_find by auto.
  destruct (find_extrema (extrema_detection c) T x) as [e|] eqn:Ee; [|reflexivity]. cbn [bind].
  rewrite (Z.add_comm (zlen (min_pos e))). fold (ext_no e). destruct (Z.ltb_spec 2 (ext_no e)) as [He|]; [|reflexivity].
  rewrite (agree_step x e) by auto.
  destruct (sift_step spl c T x) as [[[y eM] em]|] eqn:Es; [|reflexivity]. cbn [bind].
  assert (Ly : length y = length T) by (apply sift_step_length in Es; congruence).
  destruct (negb (FIXE c =? 0)); [destruct (_ <=? _); [reflexivity|apply IH; auto]|].
  rewrite agree_find by auto. destruct (find_extrema (extrema_detection c) T y) as [e'|]; [|destruct (negb _); reflexivity].
  cbn [bind]. fold (ext_no e'). destruct (negb (FIXE_H c =? 0)).
  - destruct (_ =? 1); [apply IH; auto|]. destruct (FIXE_H c <=? _); [reflexivity|apply IH; auto].
  - rewrite jit_check by (apply (not_constant (extrema_detection c) T x e); [congruence|auto|auto|rewrite HL; auto]).
    destruct (check_imf c y x eM em) as [f1|]; [|reflexivity]. cbn [bind]. destruct (_ && _); [reflexivity|apply IH; auto].
Qed.
Lemma agree_loop fuel S k IMF ext : length S = length T -> shaped (length S) IMF ->
  jit_loop spl fuel strict c S T k IMF ext = emd_loop spl fuel c S T k IMF ext.
Proof.
  intros HL. revert IMF ext. induction fuel as [|fuel IH]; intros IMF ext HI; [reflexivity|]. cbn [jit_loop emd_loop].
  assert (Lr : length (vsub S (sum_rows (length S) IMF)) = length S).
  { apply vsub_length. symmetry. apply sum_rows_length. apply Forall_forall. assumption. }
  rewrite agree_sift by congruence.
  destruct (sift spl (sift_fuel c) c T 0 0 ext _) as [[[imf e1] fin]|] eqn:Es; [|reflexivity]. cbn [bind].
  destruct (end_condition c S (IMF ++ [imf])) as [stop|]; [|reflexivity]. cbn [bind].
  destruct (_ || _); [reflexivity|]. destruct fin; [reflexivity|]. apply IH.
  apply Forall_app. split; auto. constructor; auto. apply sift_length in Es. congruence.
Qed.
Lemma agree_emd fuel S k : length S = length T -> 
  jit_emd spl fuel strict c S T k = let! (IMF, ext) := emd_loop spl fuel c S T k [] (-1) in Ok (out (emd_finish S IMF ext)).
Proof.
  intros HL. unfold jit_emd. rewrite HL, Nat.eqb_refl. cbn [negb]. rewrite agree_loop by (auto; constructor).
  destruct (emd_loop spl fuel c S T k [] (-1)) as [[IMF ext]|]; [|reflexivity]. cbn [bind].
  unfold emd_finish. cbn [out]. rewrite <- HL. destruct (allclose0 _); reflexivity.
Qed.
End Agree.

Lemma jit_emd_simple spl strict fuel c S T k : (2 <= length S)%nat -> extrema_detection c = Simple -> 1 <= nbsym c ->
  supported (spline_kind c) -> (forall t, T = Some t -> length t = length S) ->
  jit_emd spl fuel strict c S (arange (length S)) k = let! o := emd spl fuel c S T k in Ok (out o).
Proof.
  intros HS Hd Hnb Hk HT. rewrite arange_tz. rewrite agree_emd; rewrite ?tz_length; auto.
  unfold emd. rewrite (simple_time c Hd) by auto. cbn [bind]. rewrite tz_length, Nat.eqb_refl. cbn [negb].
  destruct (emd_loop _ _ _ _ _ _ _ _) as [[IMF ext]|]; reflexivity.
Qed.
Lemma jit_emd_parabol spl strict fuel c S T k : (2 <= length S)%nat -> extrema_detection c = Parabol ->
  supported (spline_kind c) -> length T = length S -> normalize_time T = Ok T ->
  jit_emd spl fuel strict c S T k = let! o := emd spl fuel c S (Some T) k in Ok (out o).
Proof.
  intros HS Hd Hk HT HN. rewrite agree_emd; auto; [|lia|congruence].
  unfold emd, emd_time. rewrite <- HT, Nat.eqb_refl. cbn [bind]. rewrite Hd. cbn [bind]. rewrite HN. cbn [bind].
  rewrite Nat.eqb_refl. cbn [negb]. destruct (emd_loop _ _ _ _ _ _ _ _) as [[IMF ext]|]; reflexivity.
Qed.

(** ** Times that [emd] leaves alone *)
Lemma normalize_id (t : list Qc) : (2 <= length t)%nat -> unit_times t -> normalize_time t = Ok t.
Proof.
  intros HL (H0 & H1 & H2). 
  assert (Hge : forall x, In x (ndiff t) -> (1 <= x)%Qc).
  { intros x Hx. apply (In_nth _ _ 0%Qc) in Hx as (i & Hi & <-). rewrite ndiff_length in Hi. rewrite nth_ndiff by lia. apply H1. lia. }
  unfold normalize_time.
  assert (E0 : existsb is0 (ndiff t) = false).
  { apply existsb_is0_false. intros x Hx Hz. specialize (Hge x Hx). qclra. }
  rewrite E0. destruct t as [|t0 t']; [simpl in HL; lia|].
  rewrite (py_get_nonneg _ 0 0%Qc) by (unfold zlen; simpl; lia). cbn [bind Z.to_nat nth].
  destruct (np_min_ok (ndiff (t0 :: t'))) as [m Em].
  { intros E. apply (f_equal (@length _)) in E. rewrite ndiff_length in E. simpl in E, HL. lia. }
  rewrite Em. cbn [bind]. destruct (np_min_spec _ _ Em) as [Hm1 Hm2].
  assert (Em1 : m = 1%Qc).
  { apply Qcle_antisym; [|auto]. destruct H2 as (i & Hi & E). rewrite <- E, <- nth_ndiff by auto.
    apply Hm2. apply nth_In. rewrite ndiff_length. lia. }
  simpl in H0. subst m t0. f_equal. rewrite <- (map_id (0%Qc :: t')) at 2. apply map_ext. intros x.
  change ((x - 0) / 1 = x)%Qc. field. intros E. apply (f_equal this) in E. discriminate.
Qed.

(** ** The rows returned add up, for any times *)
Lemma jit_step_length {A} `{Num A} (spl : spline_oracle A) c T x r : (2 <= length x)%nat -> jit_sift_step spl c T x = Ok r -> length (fst (fst r)) = length x.
Proof.
  intros HL. unfold jit_sift_step. destruct (extract_max_min_extrema c T x) as [[eM em]|]; [|discriminate]. cbn [bind].
  destruct (jit_spline_points spl _ T eM) as [u|]; [|discriminate]. cbn [bind].
  destruct (jit_spline_points spl _ T em) as [v|]; [|discriminate]. cbn [bind].
  destruct (broadcast2 nadd u v) as [s|]; [|discriminate]. cbn [bind].
  rewrite <- assign_sub by auto. destruct (assign_all _ _) as [m|] eqn:Ea; [|discriminate]. cbn [bind]. intros E. injection E as <-.
  cbn [fst]. apply vsub_length. symmetry. eapply assign_all_length; eauto.
Qed.
Lemma jit_sift_length {A} `{Num A} (spl : spline_oracle A) fuel strict c T n n_h ext x r : (2 <= length x)%nat ->
  jit_sift spl fuel strict c T n n_h ext x = Ok r -> length (fst (fst r)) = length x.
Proof.
  revert n n_h ext x. induction fuel as [|fuel IH]; intros n n_h ext x HL; [discriminate|].
  cbn [jit_sift]. destruct (_ <=? _); [intros E; injection E as <-; reflexivity|].
  destruct (jit_find_extrema _ T x) as [e|]; [|discriminate]. cbn [bind].
  destruct (2 <? _); [|intros E; injection E as <-; reflexivity].
  destruct (jit_sift_step spl c T x) as [[[y eM] em]|] eqn:Es; [|discriminate]. cbn [bind].
  apply jit_step_length in Es; auto. cbn [fst] in Es. 
  assert (HI : forall a b d, jit_sift spl fuel strict c T a b d y = Ok r -> length (fst (fst r)) = length x).
  { intros a b d E. apply IH in E; lia. }
  destruct (negb (FIXE c =? 0)); [destruct (_ <=? _); [intros E; injection E as <-; auto|apply HI]|].
  destruct (jit_find_extrema _ T y) as [e'|]; [|destruct (negb _); discriminate]. cbn [bind].
  destruct (negb (FIXE_H c =? 0)).
  - destruct (_ =? 1); [apply HI|]. destruct (FIXE_H c <=? _); [intros E; injection E as <-; auto|apply HI].
  - destruct (jit_check_imf _ _ _ _ _ _) as [f|]; [|discriminate]. cbn [bind]. destruct (_ && _); [intros E; injection E as <-; auto|apply HI].
Qed.
Lemma jit_loop_shape {A} `{Num A} (spl : spline_oracle A) fuel strict c S T k IMF ext r : (2 <= length S)%nat -> shaped (length S) IMF ->
  jit_loop spl fuel strict c S T k IMF ext = Ok r -> shaped (length S) (fst r).
Proof.
  intros HL. revert IMF ext. induction fuel as [|fuel IH]; intros IMF ext HI; [discriminate|]. cbn [jit_loop].
  assert (Lr : length (vsub S (sum_rows (length S) IMF)) = length S).
  { apply vsub_length. symmetry. apply sum_rows_length. apply Forall_forall. assumption. }
  destruct (jit_sift _ _ _ _ _ _ _ _ _) as [[[imf e1] fin]|] eqn:Es; [|discriminate]. cbn [bind].
  apply jit_sift_length in Es; [|lia]. cbn [fst] in Es.
  assert (HI' : shaped (length S) (IMF ++ [imf])) by (apply Forall_app; split; auto; constructor; auto; congruence).
  destruct (end_condition c S (IMF ++ [imf])) as [stop|]; [|discriminate]. cbn [bind].
  destruct (_ || _); [intros E; injection E as <-; auto|]. destruct fin; [intros E; injection E as <-; auto|]. apply IH; auto.
Qed.
Lemma jit_emd_rows {A} `{Num A} (spl : spline_oracle A) fuel strict c S T k M : (2 <= length S)%nat -> jit_emd spl fuel strict c S T k = Ok M ->
  exists IMF ext, shaped (length S) IMF /\ M = out (emd_finish S IMF ext).
Proof.
  intros HL. unfold jit_emd. destruct (negb _); [discriminate|].
  destruct (jit_loop spl fuel strict c S T k [] (-1)) as [[IMF ext]|] eqn:E; [|discriminate]. cbn [bind].
  intros E'. exists IMF, ext. split; [apply jit_loop_shape in E; auto; constructor|].
  unfold emd_finish. cbn [out]. destruct (allclose0 _); cbn [negb] in *; congruence.
Qed.

Lemma jit_emd_sum spl fuel strict c S T k M : (2 <= length S)%nat -> jit_emd spl fuel strict c S T k = Ok M ->
  shaped (length S) M /\ forall i, (i < length S)%nat -> within tol (nth i S 0%Qc - total_at M i)%Qc.
Proof.
  intros HL E. destruct (jit_emd_rows _ _ _ _ _ _ _ _ HL E) as (IMF & ext & HI & ->).
  destruct (emd_finish_shape S IMF ext _ HI eq_refl) as (H1 & H2 & H3). split; auto. intros i Hi.
  pose proof (residue_spec S (imfs (emd_finish S IMF ext)) i) as Hr. 
  unfold emd_finish in *. cbn [imfs out residue] in *. set (J := if ext <=? 2 then removelast IMF else IMF) in *.
  specialize (Hr H2). set (r := vsub S (sum_rows (length S) J)) in *.
  destruct (allclose0 r) eqn:D.
  - apply negligible_iff in D. assert (Er : (nth i S 0 - total_at J i = nth i r 0)%Qc) by (rewrite <- Hr; ring).
    rewrite Er. unfold negligible in D. rewrite Forall_forall in D. apply D. apply nth_In. lia.
  - rewrite total_at_app, total_at_one, Qcplus_comm, Hr. unfold within, tol. split; qclra.
Qed.

(** ** Accessors *)
Lemma py_from_last {X} (l : list X) x : py_from (l ++ [x]) (-1) = [x].
Proof.
  unfold py_from. rewrite clip_neg by (rewrite zlen_app; unfold zlen; simpl; lia). rewrite zlen_app.
  change (zlen [x]) with 1. replace (Z.to_nat _) with (length l) by (unfold zlen; lia).
  rewrite skipn_app, Nat.sub_diag, skipn_all. reflexivity.
Qed.
Lemma jit_accessor M x : ~ negligible x ->
  jit_imfs_and_trend (MkJit (Some (py_slice (M ++ [x]) 0 (-1))) (Some (py_from (M ++ [x]) (-1)))) = Ok (M, TrendRows [x]).
Proof.
  intros Hx. unfold jit_imfs_and_trend. cbn [jit_imfs jit_residue]. rewrite py_slice_all_but_last, py_from_last. cbn [forallb].
  destruct (allclose0 x) eqn:D; [apply negligible_iff in D; contradiction|reflexivity].
Qed.
Lemma jit_accessor_small M y x : negligible x ->
  jit_imfs_and_trend (MkJit (Some (py_slice ((M ++ [y]) ++ [x]) 0 (-1))) (Some (py_from ((M ++ [y]) ++ [x]) (-1)))) = Ok (M, TrendRow y).
Proof.
  intros Hx. unfold jit_imfs_and_trend. cbn [jit_imfs jit_residue]. rewrite py_slice_all_but_last, py_from_last. cbn [forallb].
  rewrite (proj2 (negligible_iff x) Hx) || rewrite (proj1 (negligible_iff x) Hx). cbn [andb].
  rewrite py_get_last. cbn [bind]. rewrite py_slice_all_but_last. reflexivity.
Qed.
Lemma jit_trend_small spl fuel strict c S T k st M y x :
  jit_emd spl fuel strict c S T k = Ok (M ++ [y; x]) -> negligible x ->
  jit_imfs_and_trend (snd (jit_call spl fuel strict c st S T k)) = Ok (M, TrendRow y).
Proof.
  intros E Hx. unfold jit_call. rewrite E. cbn [snd].
  change (M ++ [y; x]) with (M ++ [y] ++ [x]). rewrite app_assoc. apply jit_accessor_small; auto.
Qed.
Lemma emd_accessor spl fuel c S T k o M x : emd spl fuel c S T k = Ok o -> out o = M ++ [x] ->
  get_imfs_and_trend (MkState (Some (imfs o)) (Some (residue o))) = Ok (M, x).
Proof.
  intros E EM. unfold get_imfs_and_trend, get_imfs_and_residue. cbn [bind st_imfs st_residue].
  destruct (emd_output _ _ _ _ _ _ _ E) as [[Hn Eo]|[Hn Eo]].
  - rewrite (proj1 (negligible_iff _) Hn) || rewrite (proj2 (negligible_iff _) Hn). rewrite <- Eo, EM, py_get_last. cbn [bind].
    rewrite py_slice_all_but_last. reflexivity.
  - destruct (allclose0 (residue o)) eqn:D; [apply negligible_iff in D; contradiction|].
    rewrite EM in Eo. apply app_inj_tail in Eo as [<- <-]. reflexivity.
Qed.
Lemma jit_trend_agree spl fuel strict c c' S T T' k o st : 
  emd spl fuel c S T k = Ok o -> jit_emd spl fuel strict c' S T' k = Ok (out o) ->
  forall M x, out o = M ++ [x] -> ~ negligible x ->
  get_imfs_and_trend (MkState (Some (imfs o)) (Some (residue o))) = Ok (M, x) /\
  jit_imfs_and_trend (snd (jit_call spl fuel strict c' st S T' k)) = Ok (M, TrendRows [x]).
Proof.
  intros E Ej M x EM Hx. split; [eapply emd_accessor; eauto|].
  unfold jit_call. rewrite Ej. cbn [snd]. rewrite EM. apply jit_accessor; auto.
Qed.
