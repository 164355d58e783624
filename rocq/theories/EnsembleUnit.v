(** * EnsembleUnit: CEEMDAN and EEMD in another unit. *)
From Verif Require Import Py PyFacts QcFacts Emd Eemd Ceemdan Spec SymSpec EmdSym UnitSpec EmdProofs EmdExact EmdControl EemdSpec EemdProofs.
From Coq Require Import QArith Qcanon Lia.
Open Scope Z_scope.

(** ** CEEMDAN *)
Lemma ceemdan_unit G (gen : generator Qc G) std emd_of arrival c o S T m k : (0 < k)%Qc -> has_unit std -> std S <> 0%Qc ->
  let '(r, o1) := ceemdan gen std emd_of arrival c o S T m in
  let '(r', o1') := ceemdan gen std emd_of arrival c o (map (Qcmult k) S) T m in
  c_random o1' = c_random o1 /\
  match r with
  | Ok C => r' = Ok (map (map (Qcmult k)) C) /\
      forall R, ceemdan_imfs_and_residue o1 = Ok (C, R) ->
        ceemdan_imfs_and_residue o1' = Ok (map (map (Qcmult k)) C, map (Qcmult k) R)
  | Raise e => r' = Raise e /\ C_IMF o1' = C_IMF o1 /\ c_residue o1' = c_residue o1
  end.
Proof.
  intros Hk Hu HS. unfold ceemdan. rewrite Hu by auto.
  assert (EN : map (fun x => ndiv x (k * std S)%Qc) (map (Qcmult k) S) = map (fun x => ndiv x (std S)) S).
  { rewrite map_map. apply map_ext. intros x. num_qc. field. split; auto. intros ->. qclra. }
  rewrite EN. set (X := map (fun x => ndiv x (std S)) S). destruct (all_noises gen c (c_random o) (length X)) as [[N|e] g]; cbn [bind].
  2:{ cbn [c_random C_IMF c_residue]. auto. }
  destruct (ceemdan_rows std emd_of arrival c N X T m) as [C|e]; cbn [bind].
  2:{ cbn [c_random C_IMF c_residue]. auto. }
  assert (EC : map (map (fun x => nmul x (k * std S)%Qc)) C = map (map (Qcmult k)) (map (map (fun x => nmul x (std S))) C)).
  { rewrite map_map. apply map_ext. intros v. rewrite map_map. apply map_ext. intros x. num_qc. ring. }
  assert (EX : map (fun x => nmul x (k * std S)%Qc) X = sc k (map (fun x => nmul x (std S)) X)).
  { unfold sc. rewrite map_map. apply map_ext. intros x. num_qc. ring. }
  rewrite EC. cbn [c_random]. split; auto. split; auto. unfold ceemdan_imfs_and_residue. cbn [C_IMF c_residue].
  intros R E. apply ok_inv in E. apply pair_inv in E as [_ E]. subst R. f_equal. f_equal.
  rewrite EX. change (map (map (Qcmult k))) with (map (sc k)). rewrite sum_rows_sc, vsub_sc. reflexivity.
Qed.

(** ** EEMD *)
Section EEMD.
Context {G : Type} (gen : generator Qc G).
Context (k : Qc) (Hk : (0 < k)%Qc) (Hg : stretches gen).
Context {D D' : Type} (dec : decomposer Qc D) (dec' : decomposer Qc D').

Definition sct (t : list (list Qc) * option (list Qc)) := (map (sc k) (fst t), option_map (sc k) (snd t)).
Definition scd (d : list (Z * list (list Qc))) := map (fun p => (fst p, map (sc k) (snd p))) d.

Lemma noise_sc c g s n : generate_noise gen c g (k * s)%Qc n =
  (match fst (generate_noise gen c g s n) with Ok v => Ok (sc k v) | Raise e => Raise e end, snd (generate_noise gen c g s n)).
Proof.
  unfold generate_noise. destruct (Hg k g n Hk) as [H1 H2]. destruct (noise_kind c).
  - rewrite H1. destruct (normal gen g s n). reflexivity.
  - assert (E1 : ndiv (nopp (k * s)%Qc) n2 = (k * ndiv (nopp s) n2)%Qc) by (num_qc; field; discriminate).
    assert (E2 : ndiv (k * s)%Qc n2 = (k * ndiv s n2)%Qc) by (num_qc; field; discriminate).
    rewrite E1, E2, H2. destruct (uniform gen g (ndiv (nopp s) n2) (ndiv s n2) n). reflexivity.
  - reflexivity.
Qed.

(** The inner decomposition responds to the change of unit on the signals [P]. *)
Definition responds_on (P : list Qc -> Prop) T m : Prop :=
  forall X d d1 rows, P X -> run dec d X T m = (Ok rows, d1) ->
  forall d', exists d1', run dec' d' (sc k X) T m = (Ok (map (sc k) rows), d1') /\
    forall i t, trend_of dec d1 = Ok (i, t) -> trend_of dec' d1' = Ok (map (sc k) i, sc k t).

Section Run.
Context (c : eemd_config Qc) (s : Qc) (S T : list Qc) (m : Z) (P : list Qc -> Prop).
Hypothesis HP : forall g v g', generate_noise gen c g s (length S) = (Ok v, g') -> P (vadd S v).
Hypothesis HR : responds_on P T m.

Lemma trial_sc g d t g1 d1 d' : trial_update gen dec c s S T m (g, d) = (Ok t, (g1, d1)) ->
  exists d1', trial_update gen dec' c (k * s)%Qc (sc k S) T m (g, d') = (Ok (sct t), (g1, d1')).
Proof.
  unfold trial_update. cbn [fst snd]. rewrite sc_length, noise_sc.
  destruct (generate_noise gen c g s (length S)) as [[v|e] g2] eqn:EN; [|discriminate]. cbn [fst snd].
  rewrite vadd_sc. destruct (run dec d (vadd S v) T m) as [[rows|e] d2] eqn:ER; [|discriminate].
  apply HP in EN. destruct (HR _ _ _ _ EN ER d') as (d2' & ER' & ET). rewrite ER'.
  destruct (separate_trends c).
  - destruct (trend_of dec d2) as [[i tr]|e]; [|discriminate]. rewrite (ET _ _ eq_refl). intros E. inversion E. subst.
    eexists. reflexivity.
  - intros E. inversion E. subst. eexists. reflexivity.
Qed.

Lemma trials_sc n : forall g d ts g1 d1, run_trials (trial_update gen dec c s S T m) n (g, d) = (ts, None, (g1, d1)) ->
  forall d', exists d1', run_trials (trial_update gen dec' c (k * s)%Qc (sc k S) T m) n (g, d') = (map sct ts, None, (g1, d1')).
Proof.
  induction n as [|n IH]; intros g d ts g1 d1; cbn [run_trials].
  - intros E d'. inversion E. subst. eexists. reflexivity.
  - destruct (trial_update gen dec c s S T m (g, d)) as [[t|e] [g2 d2]] eqn:E1; [|discriminate].
    destruct (run_trials _ n (g2, d2)) as [[ts' x] [g3 d3]] eqn:E2. intros E d'. inversion E. subst.
    destruct (trial_sc _ _ _ _ _ d' E1) as (d2' & ->). destruct (IH _ _ _ _ _ E2 d2') as (d3' & ->). eexists. reflexivity.
Qed.
Lemma chunks_sc lens : forall g d ts, pool_chunks (trial_update gen dec c s S T m) (g, d) lens = (ts, None) ->
  forall d', pool_chunks (trial_update gen dec' c (k * s)%Qc (sc k S) T m) (g, d') lens = (map sct ts, None).
Proof.
  induction lens as [|n lens IH]; intros g d ts; cbn [pool_chunks].
  - intros E d'. inversion E. reflexivity.
  - destruct (run_trials _ n (g, d)) as [[ts1 [e|]] [g3 d3]] eqn:E2; [discriminate|].
    destruct (pool_chunks (trial_update gen dec c s S T m) (g, d) lens) as [ts2 x2] eqn:E3. intros E d'. inversion E. subst.
    destruct (trials_sc _ _ _ _ _ _ E2 d') as (d3' & ->). rewrite (IH _ _ _ E3 d'). rewrite map_app. reflexivity.
Qed.
End Run.

Lemma dict_append_sc d i v : dict_append (scd d) i (sc k v) = scd (dict_append d i v).
Proof.
  induction d as [|[j l] d IH]; [reflexivity|]. cbn [scd map dict_append fst snd]. destruct (j =? i); cbn [scd map fst snd].
  - rewrite map_app. reflexivity.
  - f_equal. exact IH.
Qed.
Lemma enumerate_sc l : forall i d, enumerate_append i (scd d) (map (sc k) l) = scd (enumerate_append i d l).
Proof. induction l as [|x l IH]; intros i d; [reflexivity|]. cbn [map enumerate_append]. rewrite dict_append_sc, IH. reflexivity. Qed.
Lemma collect_sc ts : collect (map sct ts) = scd (collect ts).
Proof.
  unfold collect. change (@nil (Z * list (list Qc))) with (scd []) at 1. generalize (@nil (Z * list (list Qc))).
  induction ts as [|[l [v|]] ts IH]; intros d; [reflexivity| |].
  - cbn [map fold_left]. rewrite <- IH. f_equal. unfold collect_one, sct. cbn [fst snd option_map]. rewrite dict_append_sc, enumerate_sc. reflexivity.
  - cbn [map fold_left]. rewrite <- IH. f_equal. unfold collect_one, sct. cbn [fst snd option_map]. rewrite enumerate_sc. reflexivity.
Qed.
Lemma dict_get_sc d i : dict_get (scd d) i = option_map (map (sc k)) (dict_get d i).
Proof. induction d as [|[j l] d IH]; [reflexivity|]. cbn [scd map dict_get fst snd]. destruct (j =? i); auto. Qed.
Lemma dict_del_sc d i : dict_del (scd d) i = scd (dict_del d i).
Proof.
  induction d as [|[j l] d IH]; [reflexivity|]. unfold dict_del in *. cbn [scd map filter fst snd]. destruct (negb (j =? i)).
  - cbn [map fst snd]. f_equal. exact IH.
  - exact IH.
Qed.
Lemma dict_set_sc d i l : dict_set (scd d) i (map (sc k) l) = scd (dict_set d i l).
Proof. induction d as [|[j l'] d IH]; [reflexivity|]. cbn [scd map dict_set fst snd]. destruct (j =? i); cbn [map fst snd]; auto. f_equal. exact IH. Qed.
Lemma scd_length d : zlen (scd d) = zlen d.
Proof. unfold zlen, scd. rewrite map_length. reflexivity. Qed.
Lemma rename_sc d : rename_trend (scd d) = scd (rename_trend d).
Proof.
  unfold rename_trend. rewrite dict_get_sc. destruct (dict_get d (-1)) as [l|]; cbn [option_map]; auto.
  rewrite dict_del_sc, scd_length, dict_set_sc. reflexivity.
Qed.
Lemma lens_sc n l : forallb (fun y => Nat.eqb (length y) n) (map (sc k) l) = forallb (fun y => Nat.eqb (length y) n) l.
Proof. induction l as [|y l IH]; [reflexivity|]. cbn [map forallb]. rewrite IH, sc_length. reflexivity. Qed.
Lemma np_array_sc l r : np_array l = Ok r -> np_array (map (sc k) l) = Ok (map (sc k) r).
Proof.
  destruct l as [|x l]; cbn [np_array map]; [intros E; apply ok_inv in E; subst; reflexivity|].
  rewrite sc_length, lens_sc. destruct (forallb _ l) eqn:F; [|discriminate]. intros E. apply ok_inv in E. subst r. reflexivity.
Qed.
Lemma mean_rows_sc l : mean_rows (map (sc k) l) = sc k (mean_rows l).
Proof.
  destruct l as [|x l]; [reflexivity|]. unfold mean_rows. cbn [map]. rewrite sc_length.
  change (sc k x :: map (sc k) l) with (map (sc k) (x :: l)). rewrite sum_rows_sc. unfold zlen. rewrite map_length.
  unfold sc. rewrite !map_map. apply map_ext. intros y. num_qc. unfold Qcdiv. ring.
Qed.
Lemma ensemble_mean_sc d E : ensemble_mean d = Ok E -> ensemble_mean (scd d) = Ok (map (sc k) E).
Proof.
  unfold ensemble_mean. intros H. apply np_array_sc in H. rewrite <- H. f_equal. unfold scd. rewrite !map_map. apply map_ext.
  intros p. cbn [snd]. apply mean_rows_sc.
Qed.
Lemma arrays_sc d l : mapM (fun p : Z * list (list Qc) => np_array (snd p)) d = Ok l -> exists l', mapM (fun p => np_array (snd p)) (scd d) = Ok l'.
Proof.
  revert l. induction d as [|p d IH]; intros l; cbn [scd map mapM]; [eauto|]. intros E. apply bind_ok in E as (x & E1 & E).
  apply bind_ok in E as (y & E2 & E). cbn [snd]. rewrite (np_array_sc _ _ E1). cbn [bind]. destruct (IH _ E2) as (l' & E3).
  unfold scd in E3. rewrite E3. cbn [bind]. eauto.
Qed.
Lemma broadcast_sc x y z : broadcast2 nsub x y = Ok z -> broadcast2 nsub (sc k x) (sc k y) = Ok (sc k z).
Proof.
  unfold broadcast2. rewrite !sc_length. destruct (Nat.eqb (length x) (length y)).
  - intros E. apply ok_inv in E. subst z. f_equal. apply vsub_sc.
  - assert (L : forall a v, map (nsub (k * a)%Qc) (sc k v) = sc k (map (nsub a) v)).
    { intros a v. unfold sc. rewrite !map_map. apply map_ext. intros; num_qc; ring. }
    assert (R : forall a v, map (fun u => nsub u (k * a)%Qc) (sc k v) = sc k (map (fun u => nsub u a) v)).
    { intros a v. unfold sc. rewrite !map_map. apply map_ext. intros; num_qc; ring. }
    destruct x as [|a [|b x]], y as [|c [|d y]]; try discriminate; intros E; apply ok_inv in E; subst z.
    all: first [exact (f_equal Ok (L _ _)) | exact (f_equal Ok (R _ _))].
Qed.
Lemma minus_rows_sc S E r : minus_rows S E = Ok r -> minus_rows (sc k S) (map (sc k) E) = Ok (sc k r).
Proof.
  destruct E as [|x E]; cbn [minus_rows map].
  - intros H. apply ok_inv in H. subst r. f_equal. unfold sc. rewrite !map_map. apply map_ext. intros y. num_qc. ring.
  - rewrite sc_length. change (sc k x :: map (sc k) E) with (map (sc k) (x :: E)). rewrite sum_rows_sc. apply broadcast_sc.
Qed.

Theorem eemd_unit c o o2 S T m E o' : random o2 = random o ->
  (forall T' w, np_max S = Ok (fst w) -> np_min S = Ok (snd w) ->
     match T with Some t => T' = t | None => timeline (length S) = Ok T' end ->
     responds_on (fun X => exists g v g', generate_noise gen c g (noise_width c * Qc_abs (fst w - snd w))%Qc (length S) = (Ok v, g') /\ X = vadd S v) T' m) ->
  eemd gen dec c o S T m = (Ok E, o') ->
  exists o2', eemd gen dec' c o2 (sc k S) T m = (Ok (map (sc k) E), o2') /\ random o2' = random o' /\
    exists r, e_residue o' = Some r /\ e_residue o2' = Some (sc k r) /\ E_IMF o' = Some E /\ E_IMF o2' = Some (map (sc k) E).
Proof.
  intros Ho HR. unfold eemd. rewrite sc_length.
  destruct (match T with Some t => Ok t | None => timeline (length S) end) as [T'|] eqn:ET; [|discriminate]. cbn [bind].
  destruct (np_max S) as [mx|] eqn:Emx; [|discriminate]. destruct (np_min S) as [mn|] eqn:Emn; [|discriminate]. cbn [bind].
  assert (Kn : k <> 0%Qc) by (intros ->; qclra).
  assert (EX : np_max (sc k S) = Ok (k * mx)%Qc /\ np_min (sc k S) = Ok (k * mn)%Qc).
  { pose proof (np_extremes_sc k S mx mn Kn Emx Emn) as H. unfold flip in H. rewrite (proj2 (Qc_ltb_ge k 0)) in H; [exact H|]. apply Qclt_le_weak; auto. }
  destruct EX as [-> ->]. cbn [bind].
  assert (ES : nmul (noise_width c) (nabs (nsub (k * mx)%Qc (k * mn)%Qc)) = (k * (noise_width c * Qc_abs (mx - mn)))%Qc).
  { num_qc. replace (k * mx - k * mn)%Qc with (k * (mx - mn))%Qc by ring. rewrite abs_mul.
    replace (Qc_abs k) with k; [ring|]. unfold Qc_abs. rewrite (proj2 (Qc_ltb_ge k 0)); auto. apply Qclt_le_weak; auto. }
  rewrite ES. num_qc. set (s := (noise_width c * Qc_abs (mx - mn))%Qc) in *.
  specialize (HR T' (mx, mn) eq_refl eq_refl). cbn [fst snd] in HR. fold s in HR.
  assert (HR' := HR ltac:(destruct T; [apply ok_inv in ET; auto|auto])). clear HR.
  set (P := fun X => _) in HR'.
  assert (HP : forall g v g', generate_noise gen c g s (length S) = (Ok v, g') -> P (vadd S v)) by (intros g v g' H; exists g, v, g'; auto).
  set (step := trial_update gen dec c s S T' m). set (step' := trial_update gen dec' c (k * s)%Qc (sc k S) T' m).
  destruct (if parallel c then let '(ts, x) := pool_map (processes c) step (trials c) (random o, inner o) in (ts, x, (random o, inner o))
     else run_trials step (Z.to_nat (trials c)) (random o, inner o)) as [[ts x] st] eqn:ER.
  destruct x as [e|]; [discriminate|].
  assert (RUN : exists st', (if parallel c then let '(ts, x) := pool_map (processes c) step' (trials c) (random o2, inner o2) in (ts, x, (random o2, inner o2))
     else run_trials step' (Z.to_nat (trials c)) (random o2, inner o2)) = (map sct ts, None, st') /\ fst st' = fst st).
  { rewrite Ho. destruct (parallel c).
    - unfold pool_map in *. destruct (processes c <? 1); [discriminate|].
      destruct (pool_chunks step _ _) as [ts' x'] eqn:EP. inversion ER. subst ts' x' st.
      unfold step'. rewrite (chunks_sc c s S T' m P HP HR' _ _ _ _ EP (inner o2)). eexists. split; reflexivity.
    - unfold step'. destruct st as [g1 d1]. destruct (trials_sc c s S T' m P HP HR' _ _ _ _ _ _ ER (inner o2)) as (d1' & ->).
      eexists. split; reflexivity. }
  destruct RUN as (st' & -> & Est). cbn [all_imfs random inner E_IMF e_residue].
  rewrite collect_sc, rename_sc. set (d := rename_trend (collect ts)).
  destruct (mapM _ d) as [l|] eqn:EA; [|discriminate]. destruct (arrays_sc _ _ EA) as (l' & ->).
  destruct (ensemble_mean d) as [F|] eqn:EM; [|discriminate]. rewrite (ensemble_mean_sc _ _ EM).
  destruct (minus_rows S F) as [r|] eqn:EMR; [|discriminate]. rewrite (minus_rows_sc _ _ _ EMR).
  intros EQ. apply pair_inv in EQ as [EQ1 EQ2]. apply ok_inv in EQ1. subst F o'. eexists. split; [reflexivity|].
  cbn [random e_residue E_IMF]. split; auto. exists r. auto.
Qed.
End EEMD.

Lemma slice_sc k (l : list (list Qc)) : py_slice (map (sc k) l) 0 (-1) = map (sc k) (py_slice l 0 (-1)).
Proof.
  destruct l as [|x l] using rev_ind; [reflexivity|]. rewrite map_app. cbn [map]. rewrite !py_slice_all_but_last. reflexivity.
Qed.
Lemma emd_out_of spl fuel (c : emd_config Qc) S T m o : emd spl fuel c S T m = Ok o ->
  out o = if allclose0 (residue o) then imfs o else imfs o ++ [residue o].
Proof.
  unfold emd. intros E. apply bind_ok in E as (t & _ & E). destruct (negb _); [discriminate|].
  apply bind_ok in E as ([I x] & _ & E). apply ok_inv in E. subst o. reflexivity.
Qed.

(** PyEMD's EMD as inner decomposition, on signals whose residue is negligible in both units or in
    neither. *)
Lemma emd_responds_on k spl fuel c T m : (0 < k)%Qc -> responds (Qcmult k) spl -> extrema_detection c = Simple ->
  FIXE c <> 0 \/ FIXE_H c <> 0 ->
  responds_on k (emd_decomposer spl fuel c) (emd_decomposer spl fuel (rescaled k c))
    (fun X => (2 <= length X)%nat /\ forall e, emd spl fuel c X (Some T) m = Ok e ->
       (negligible (residue e) <-> negligible (map (Qcmult k) (residue e)))) T m.
Proof.
  intros Hk Hr Hd Hm X d d1 rows [HX HN] E d'. cbn [run emd_decomposer] in *. unfold emd_call in *.
  destruct (emd spl fuel c X (Some T) m) as [e|] eqn:E1; [|discriminate]. apply pair_inv in E as [E2 <-]. apply ok_inv in E2. subst rows.
  destruct (emd_unit spl fuel c X (Some T) m k k e Hk (or_introl eq_refl) Hr Hd Hm HX E1) as (e' & E' & H1 & H2).
  unfold sc at 1. rewrite E'. eexists. split.
  - f_equal. f_equal. rewrite (emd_out_of _ _ _ _ _ _ _ E'), (emd_out_of _ _ _ _ _ _ _ E1), H1, H2.
    assert (A : allclose0 (map (Qcmult k) (residue e)) = allclose0 (residue e)).
    { specialize (HN _ eq_refl). rewrite <- !negligible_iff in HN.
      destruct (allclose0 (residue e)), (allclose0 (map (Qcmult k) (residue e))); try reflexivity; [destruct (proj1 HN eq_refl)|destruct (proj2 HN eq_refl)]; reflexivity. }
    rewrite A. destruct (allclose0 (residue e)); [reflexivity|]. rewrite map_app. reflexivity.
  - intros i t. unfold trend_of, emd_decomposer, get_imfs_and_trend, get_imfs_and_residue. cbn [st_imfs st_residue bind]. rewrite H1, H2.
    assert (A : allclose0 (map (Qcmult k) (residue e)) = allclose0 (residue e)).
    { specialize (HN _ eq_refl). rewrite <- !negligible_iff in HN.
      destruct (allclose0 (residue e)), (allclose0 (map (Qcmult k) (residue e))); try reflexivity; [destruct (proj1 HN eq_refl)|destruct (proj2 HN eq_refl)]; reflexivity. }
    rewrite A. destruct (allclose0 (residue e)).
    + intros ET. apply bind_ok in ET as (x & Ex & ET). apply ok_inv in ET. apply pair_inv in ET as [-> ->].
      change (map (map (Qcmult k))) with (map (sc k)). rewrite (py_get_map _ _ _ _ Ex). cbn [bind]. rewrite slice_sc. reflexivity.
    + intros ET. apply ok_inv in ET. apply pair_inv in ET as [-> ->]. reflexivity.
Qed.

Lemma max_of_spread S mx mn : np_max S = Ok mx -> np_min S = Ok mn -> In mx S /\ In mn S /\ (forall x, In x S -> mn <= x <= mx)%Qc.
Proof.
  intros E1 E2. apply np_max_spec in E1. apply np_min_spec in E2. destruct E1 as [I1 U1], E2 as [I2 U2].
  split; auto.
Qed.

Theorem eemd_unit_emd G (gen : generator Qc G) spl fuel ec c o o2 S T m E o' k hi lo : (0 < k)%Qc ->
  stretches gen -> sized gen -> responds (Qcmult k) spl -> extrema_detection ec = Simple -> FIXE ec <> 0 \/ FIXE_H ec <> 0 ->
  (2 <= length S)%nat -> In hi S -> In lo S -> (forall x, In x S -> lo <= x <= hi)%Qc ->
  (forall g v g' e, generate_noise gen c g (noise_width c * (hi - lo))%Qc (length S) = (Ok v, g') ->
     emd spl fuel ec (map2 Qcplus S v) None m = Ok e ->
     (negligible (residue e) <-> negligible (map (Qcmult k) (residue e)))) ->
  random o2 = random o ->
  eemd gen (emd_decomposer spl fuel ec) c o S T m = (Ok E, o') ->
  exists o2', eemd gen (emd_decomposer spl fuel (rescaled k ec)) c o2 (map (Qcmult k) S) T m = (Ok (map (map (Qcmult k)) E), o2') /\
    random o2' = random o' /\
    exists r, eemd_imfs_and_residue o' = Ok (E, r) /\
      eemd_imfs_and_residue o2' = Ok (map (map (Qcmult k)) E, map (Qcmult k) r).
Proof.
  intros Hk Hg Hsz Hr Hd Hm HS Ih Il HB HN Ho ER.
  destruct (eemd_unit gen k Hk Hg (emd_decomposer spl fuel ec) (emd_decomposer spl fuel (rescaled k ec)) c o o2 S T m E o' Ho) as (o2' & H1 & H2 & r & H3 & H4 & H5 & H6); auto.
  - intros T' [mx mn] E1 E2 _ X d d1 rows (g & v & g' & EN & ->) EX d'. cbn [fst snd] in *.
    destruct (max_of_spread S mx mn E1 E2) as (I1 & I2 & B).
    assert (mx = hi) as -> by (apply Qcle_antisym; [apply HB; auto|apply B; auto]).
    assert (mn = lo) as -> by (apply Qcle_antisym; [apply B; auto|apply HB; auto]).
    assert (A : Qc_abs (hi - lo) = (hi - lo)%Qc).
    { unfold Qc_abs. rewrite (proj2 (Qc_ltb_ge _ _)); auto. pose proof (proj1 (B _ I1)). qclra. }
    rewrite A in EN.
    apply (emd_responds_on k spl fuel ec T' m Hk Hr Hd Hm (vadd S v) d d1 rows); auto. split.
    + unfold vadd. rewrite map2_length. assert (L : length v = length S); [|rewrite L; lia].
      revert EN. unfold generate_noise. destruct (Hsz g (noise_width c * (hi - lo))%Qc (length S)) as [L1 L2].
      destruct (noise_kind c).
      * destruct (normal gen g _ _) as [w g2]. intros EE. inversion EE. subst. exact L1.
      * match goal with |- context [uniform gen g ?a ?b ?n] => pose proof (L2 a b) as L3; destruct (uniform gen g a b n) as [w g2] end.
        intros EE. inversion EE. subst. exact L3.
      * discriminate.
    + intros e Ee. apply (HN g v g' e EN). rewrite <- Ee. change (map2 Qcplus S v) with (vadd S v). symmetry.
      destruct (Nat.eq_dec (length T') (length (vadd S v))) as [L|L].
      * apply (emd_simple_time spl fuel ec (vadd S v) T' T' m Hd L L).
      * rewrite (emd_bad_length spl fuel ec (vadd S v) T' m L) in Ee. discriminate.
  - exists o2'. split; auto. split; auto. exists r. unfold eemd_imfs_and_residue. rewrite H3, H4, H5, H6. auto.
Qed.
