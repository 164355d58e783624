(** * ReturnsEnsemble: whom to blame when EEMD or CEEMDAN raises (C94). *)
From Verif Require Import PyFacts QcFacts Eemd Ceemdan Spec EemdSpec CeemdanSpec FailedSpec
  EmdProofs EmdControl EmdExact EemdProofs EemdExact EmdSimple PrepareProofs CeemdanProofs CeemdanExact Failed.
From Coq Require Import ZifyBool ZifyNat QArith Qcanon Permutation.
Open Scope Z_scope.

Section Eemd.
Context {G D : Type}.
Variable gen : generator Qc G.
Variable dec : decomposer Qc D.
Hypothesis Hsz : sized gen.
Hypothesis Hsh : shapely dec.

(** What makes a run of the trials stop. *)
Lemma trials_blame c scale (S T : list Qc) k n st ts e st' : noise_kind c <> OtherNoise ->
  run_trials (trial_update gen dec c scale S T k) n st = (ts, Some e, st') ->
  exists vs v last d r d', noise_stream gen (noise_kind c) scale (length S) (fst st) (vs ++ [v]) last /\
    (length vs < n)%nat /\ noisy S v (vadd S v) /\ run dec d (vadd S v) T k = (r, d') /\
    (r = Raise e \/ exists imfs, r = Ok imfs /\ separate_trends c = true /\ trend_of dec d' = Raise e).
Proof.
  intros Hk R. unfold trial in *.
  assert (Hone : forall i t, nth_error ts i = Some t -> exists noise,
     draw gen c scale (length S) i (fst st) = Ok noise /\ trial_on dec (separate_trends c) S T k noise t)
    by (intros i t Hi; exact (run_trials_nth _ _ _ _ _ _ _ _ _ _ _ _ _ _ R Hi)).
  destruct (run_trials_fails _ _ _ _ _ _ _ _ _ _ _ _ R) as (Hlt & [g1 d1] & Hg & Hf). cbn [fst] in Hg. unfold trial in *.
  unfold trial_update in Hf. cbn [fst snd] in Hf.
  destruct (generate_noise gen c g1 scale (length S)) as [[v|e2] g2] eqn:Eg.
  2:{ exfalso. unfold generate_noise in Eg. destruct (noise_kind c); try congruence.
      - destruct (normal gen g1 scale (length S)); discriminate.
      - destruct (uniform gen g1 _ _ (length S)); discriminate. }
  assert (Hlv : length v = length S) by (eapply (generate_length gen Hsz c g1 scale); rewrite Eg; reflexivity).
  destruct (run dec d1 (vadd S v) T k) as [r d2] eqn:Er.
  exists (map (fun i => drawn gen c scale (length S) i (fst st)) (seq 0 (length ts))), v, g2, d1, r, d2.
  split.
  { apply stream_app with (g' := g1); [|apply generate_draws; auto].
    rewrite Hg. apply stream_of_draws. intros i Hi.
    destruct (nth_error ts i) as [t|] eqn:Et; [|apply nth_error_None in Et; unfold trial in *; lia].
    destruct (Hone _ _ Et) as (noise & N & _). eauto. }
  split; [rewrite map_length, seq_length; exact Hlt|].
  split. { split; auto. split; [apply vadd_length; auto|]. intros i. apply nth_vadd. auto. }
  split; [exact Er|].
  destruct r as [imfs|e2]; [|left; congruence]. right. exists imfs. split; auto.
  destruct (separate_trends c); [|discriminate]. split; auto. destruct (trend_of dec d2) as [[i tr]|e2]; congruence.
Qed.
Lemma chunks_blame (step : G * D -> res (trial (A := Qc)) * (G * D)) st lens ts e :
  pool_chunks step st lens = (ts, Some e) -> exists n ts' st', In n lens /\ run_trials step n st = (ts', Some e, st').
Proof.
  revert ts. induction lens as [|n lens IH]; intros ts; cbn [pool_chunks]; [discriminate|].
  destruct (run_trials step n st) as [[ts1 x1] st1] eqn:R. destruct x1 as [e1|].
  - intros X. assert (e1 = e) as -> by congruence. exists n, ts1, st1. split; [left; auto|auto].
  - destruct (pool_chunks step st lens) as [ts2 x2]. intros X. assert (x2 = Some e) as -> by congruence.
    destruct (IH _ eq_refl) as (n' & ts' & st' & H1 & H2). exists n', ts', st'. split; [right; auto|auto].
Qed.
Lemma in_sum (l : list nat) x : In x l -> (x <= fold_right Nat.add O l)%nat.
Proof. induction l as [|y l IH]; cbn [In fold_right]; [intros []|]. intros [->|H]; [lia|]. specialize (IH H). lia. Qed.
Lemma pool_blame (step : G * D -> res (trial (A := Qc)) * (G * D)) procs n st ts e : 1 <= procs ->
  pool_map procs step n st = (ts, Some e) -> exists m ts' st', (m <= Z.to_nat n)%nat /\ run_trials step m st = (ts', Some e, st').
Proof.
  intros Hp. unfold pool_map. destruct (Z.ltb_spec procs 1); [lia|]. intros X. apply chunks_blame in X as (m & ts' & st' & H1 & H2).
  exists m, ts', st'. split; [|exact H2]. destruct (Z_lt_le_dec 0 n) as [L|L].
  - destruct (chunk_lengths_spec (Z.to_nat n) (chunksize n procs) n (chunksize_pos _ _ Hp L) (Nat.le_refl _)) as [E _].
    rewrite <- E. apply in_sum, H1.
  - exfalso. replace (Z.to_nat n) with O in H1 by lia. destruct H1.
Qed.

(** EEMD raises only what the decomposition of a noisy copy raises. *)
Theorem eemd_blame c o (S : list Qc) T k e o' : S <> [] -> noise_kind c <> OtherNoise -> (parallel c = true -> 1 <= processes c) ->
  eemd gen dec c o S T k = (Raise e, o') ->
  exists T' w vs v X last d r d', spread S w /\ match T with Some t => T' = t | None => T' = arange (length S) end /\
    noise_stream gen (noise_kind c) (noise_width c * w)%Qc (length S) (random o) (vs ++ [v]) last /\
    zlen vs < trials c /\ noisy S v X /\ run dec d X T' k = (r, d') /\
    (r = Raise e \/ exists imfs, r = Ok imfs /\ separate_trends c = true /\ trend_of dec d' = Raise e).
Proof.
  intros HS Hk Hp. unfold eemd.
  assert (exists T', match T with Some t => Ok t | None => timeline (length S) end = Ok T' /\
     match T with Some t => T' = t | None => T' = arange (length S) end) as (T' & E1 & HT).
  { destruct T as [t|]; [eauto|]. unfold timeline. destruct S; [congruence|]. cbn [length]. eexists. split; [reflexivity|].
    rewrite arange_tz. reflexivity. }
  rewrite E1. cbn [bind]. destruct (np_max_ok S HS) as (mx & Emx). destruct (np_min_ok S HS) as (mn & Emn).
  rewrite Emx. cbn [bind]. rewrite Emn. cbn [bind]. apply np_max_spec in Emx as [X1 X2]. apply np_min_spec in Emn as [M1 M2].
  assert (Hw : nmul (noise_width c) (nabs (nsub mx mn)) = (noise_width c * (mx - mn))%Qc).
  { change (noise_width c * Qc_abs (mx - mn) = noise_width c * (mx - mn))%Qc. f_equal.
    specialize (M2 mx X1). destruct (Qc_abs_spec (mx - mn)) as [A1 [A2|A2]]; auto.
    assert ((mx - mn = 0)%Qc) by (rewrite A2 in A1; qclra). rewrite A2, H. reflexivity. }
  rewrite Hw. clear Hw. set (scale := (noise_width c * (mx - mn))%Qc).
  assert (Hsp : spread S (mx - mn)%Qc) by (exists mx, mn; repeat (split; [assumption|]); split; [intros x Hx; split; auto|reflexivity]).
  set (step := trial_update gen dec c scale S T' k).
  assert (HB : forall n ts st', (n <= Z.to_nat (trials c))%nat -> run_trials step n (random o, inner o) = (ts, Some e, st') ->
    exists T' w vs v X last d r d', spread S w /\ match T with Some t => T' = t | None => T' = arange (length S) end /\
    noise_stream gen (noise_kind c) (noise_width c * w)%Qc (length S) (random o) (vs ++ [v]) last /\
    zlen vs < trials c /\ noisy S v X /\ run dec d X T' k = (r, d') /\
    (r = Raise e \/ exists imfs, r = Ok imfs /\ separate_trends c = true /\ trend_of dec d' = Raise e)).
  { intros n ts st' Hn R. destruct (trials_blame _ _ _ _ _ _ _ _ _ _ Hk R) as (vs & v & last & d & r & d' & B1 & B2 & B3 & B4 & B5).
    exists T', (mx - mn)%Qc, vs, v, (vadd S v), last, d, r, d'. repeat (split; [first [assumption|unfold zlen; lia]|]). exact B5. }
  destruct (parallel c) eqn:Ep.
  - destruct (pool_map (processes c) step (trials c) (random o, inner o)) as [ts [e1|]] eqn:Em.
    + intros X. assert (e1 = e) as -> by congruence. apply pool_blame in Em as (m & ts' & st' & H1 & H2); [|auto]. eapply HB; eauto.
    + intros X. exfalso. apply pool_shaped in Em; auto.
      assert (H1 : Forall (fun p => shaped (length S) (snd p)) (rename_trend (collect ts)))
        by (apply rename_shaped, collect_shaped; auto).
      assert (H2 : Forall (fun p => snd p <> []) (rename_trend (collect ts)))
        by (apply rename_full, collect_full; constructor).
      cbn [all_imfs] in X. destruct (mapM_arrays _ _ H1) as (y & Y). rewrite Y in X.
      destruct (means_shaped _ _ H2 H1) as (E & E2 & _ & E3). rewrite E2 in X.
      destruct (minus_ok (length S) S E eq_refl E3) as (r & R). rewrite R in X. discriminate X.
  - destruct (run_trials step (Z.to_nat (trials c)) (random o, inner o)) as [[ts [e1|]] st] eqn:Em.
    + intros X. assert (e1 = e) as -> by congruence. eapply HB; eauto.
    + intros X. exfalso. apply trials_shaped in Em; auto.
      assert (H1 : Forall (fun p => shaped (length S) (snd p)) (rename_trend (collect ts)))
        by (apply rename_shaped, collect_shaped; auto).
      assert (H2 : Forall (fun p => snd p <> []) (rename_trend (collect ts)))
        by (apply rename_full, collect_full; constructor).
      cbn [all_imfs] in X. destruct (mapM_arrays _ _ H1) as (y & Y). rewrite Y in X.
      destruct (means_shaped _ _ H2 H1) as (E & E2 & _ & E3). rewrite E2 in X.
      destruct (minus_ok (length S) S E eq_refl E3) as (r & R). rewrite R in X. discriminate X.
Qed.
End Eemd.

(** ** With EMD inside *)
Section WithEmd.
Variable spl : spline_oracle Qc.
Hypothesis Hspl : interpolates spl.
Hypothesis Hfuel : forall kind pts t, spl kind pts t <> Raise OutOfFuel.
Variable cfg : emd_config Qc.
Hypothesis Hdet : extrema_detection cfg = Simple.
Hypothesis Hnb : 1 <= nbsym cfg.
Hypothesis Hkind : parse_kind (spline_kind cfg) <> None.

Lemma emd_no_rows fuel S T k o : emd spl fuel cfg S T k = Ok o -> imfs o = [] -> negligible (residue o) -> negligible S.
Proof.
  intros E E1 E2. rewrite (emd_residue _ _ _ _ _ _ _ E), E1 in E2. cbn in E2. rewrite vsub_zeros in E2. exact E2.
Qed.

Theorem eemd_returns {G} (gen : generator Qc G) fuel c o S T k : sized gen ->
  (2 <= length S)%nat -> (forall t, T = Some t -> length t = length S) -> 0 < k -> (Z.to_nat k <= fuel)%nat ->
  noise_kind c <> OtherNoise -> (parallel c = true -> 1 <= processes c) ->
  match eemd gen (emd_decomposer spl fuel cfg) c o S T k with
  | (Ok _, _) => True
  | (Raise e, _) => e = IndexError /\ separate_trends c = true /\
      exists w vs v last X, spread S w /\
        noise_stream gen (noise_kind c) (noise_width c * w)%Qc (length S) (random o) (vs ++ [v]) last /\
        zlen vs < trials c /\ noisy S v X /\ negligible X
  end.
Proof.
  intros Hsz HS HT Hk Hf Hn Hp. destruct (eemd gen _ c o S T k) as [[E|e] o'] eqn:R; [exact I|].
  apply (eemd_blame gen _ Hsz (emd_shapely spl fuel cfg)) in R as
    (T' & w & vs & v & X & last & d & r & d' & B1 & B2 & B3 & B4 & B5 & B6 & B7); auto; [|intros ->; cbn in HS; lia].
  assert (HLX : length X = length S) by (destruct B5 as (_ & L & _); exact L).
  assert (HLT : length T' = length S).
  { destruct T as [t|]; [subst; auto|]. rewrite B2. rewrite arange_tz. apply tz_length. }
  destruct (emd_simple_returns spl Hspl cfg Hdet Hnb Hkind fuel X (Some T') k Hfuel) as (oo & Eo); auto; try lia.
  { intros t Et. congruence. }
  cbn [run emd_decomposer] in B6. unfold emd_call in B6. rewrite Eo in B6.
  assert (r = Ok (out oo) /\ d' = MkState (Some (imfs oo)) (Some (residue oo))) as [-> ->] by (split; congruence).
  destruct B7 as [B7|(imfs' & _ & Hsep & Htr)]; [discriminate|]. cbn [trend_of emd_decomposer] in Htr.
  pose proof (trend_spec _ _ _ _ _ _ _ Eo) as TS. cbv zeta in TS. rewrite Htr in TS. destruct TS as (-> & T1 & T2).
  split; auto. split; auto. exists w, vs, v, last, X. repeat (split; [assumption|]). eapply emd_no_rows; eauto.
Qed.
End WithEmd.
