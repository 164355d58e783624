(** * Failed: what a run that raises leaves in an EEMD or CEEMDAN object. *)
From Verif Require Import PyFacts QcFacts Eemd Ceemdan Spec EemdSpec CeemdanSpec FailedSpec
  EmdProofs EmdExact EemdProofs EemdExact CeemdanProofs.
From Coq Require Import QArith Qcanon.
Open Scope Z_scope.

Section History.
Context {C A O X : Type}.
Variable seed : O -> Z -> O.
Variable go : C -> O -> list A -> option (list A) -> Z -> res (list (list A)) * O.
Variable get : O -> X.
Hypothesis get_seed : forall o s, get (seed o s) = get o.
Hypothesis get_raise : forall c o S T k e o', go c o S T k = (Raise e, o') -> get o' = get o.
Lemma all_raise_get acts o : all_raise seed go o acts -> get (after_all seed go o acts) = get o.
Proof.
  revert o. induction acts as [|a acts IH]; intros o; [reflexivity|]. cbn [all_raise after_all fold_left].
  intros [H1 H2]. fold (after_all seed go (does seed go o a) acts). rewrite (IH _ H2).
  destruct a as [s|c x T k]; cbn [does]; [apply get_seed|]. destruct H1 as (e & He).
  destruct (go c o x T k) as [r o'] eqn:E. cbn [fst snd] in *. subst r. eapply get_raise; eauto.
Qed.
Lemma after_app o l l' : after_all seed go o (l ++ l') = after_all seed go (after_all seed go o l) l'.
Proof. unfold after_all. apply fold_left_app. Qed.
End History.

Section Eemd.
Context {G D : Type}.
Variable gen : generator Qc G.
Variable dec : decomposer Qc D.
Hypothesis Hsz : sized gen.
Hypothesis Hsh : shapely dec.

Definition trial_shaped (n : nat) (t : trial (A := Qc)) : Prop :=
  shaped n (fst t) /\ forall v, snd t = Some v -> length v = n.
Lemma trial_on_shaped sep (S T : list Qc) k noise t : length noise = length S ->
  trial_on dec sep S T k noise t -> trial_shaped (length S) t.
Proof.
  intros Hn (d & d' & imfs & R & X).
  destruct (Hsh _ _ _ _ _ _ R) as [F1 F2].
  assert (HL : length (vadd S noise) = length S) by (apply vadd_length; auto). rewrite HL in F1, F2.
  destruct sep.
  - destruct X as (i & tr & X1 & ->). specialize (F2 _ _ X1). apply Forall_app in F2 as [F2 F3].
    split; [exact F2|]. cbn [snd]. intros v Hv. injection Hv as <-. inversion F3; auto.
  - subst t. split; [exact F1|]. discriminate.
Qed.

(** Every row collected has the length of the signal. *)
Lemma append_shaped n (d : list (Z * list (list Qc))) k v :
  Forall (fun p => shaped n (snd p)) d -> length v = n -> Forall (fun p => shaped n (snd p)) (dict_append d k v).
Proof.
  intros Hd Hv. induction d as [|[k' l] d IH]; cbn [dict_append].
  - constructor; auto. cbn. constructor; auto.
  - inversion Hd; subst. destruct (k' =? k).
    + constructor; auto. cbn [snd] in *. apply Forall_app. split; auto.
    + constructor; auto.
Qed.
Lemma enum_shaped n imfs : shaped n imfs -> forall k (d : list (Z * list (list Qc))),
  Forall (fun p => shaped n (snd p)) d -> Forall (fun p => shaped n (snd p)) (enumerate_append k d imfs).
Proof.
  induction 1 as [|x imfs Hx Hs IH]; intros k d Hd; cbn [enumerate_append]; auto.
  apply IH. apply append_shaped; auto.
Qed.
Lemma collect_shaped n ts : Forall (trial_shaped n) ts -> forall d : list (Z * list (list Qc)),
  Forall (fun p => shaped n (snd p)) d -> Forall (fun p => shaped n (snd p)) (fold_left collect_one ts d).
Proof.
  induction 1 as [|t ts [H1 H2] Hs IH]; intros d Hd; cbn [fold_left]; auto.
  apply IH. unfold collect_one. apply enum_shaped; auto. destruct (snd t) as [v|]; auto.
  apply append_shaped; auto.
Qed.
Lemma set_shaped n (d : list (Z * list (list Qc))) k l :
  Forall (fun p => shaped n (snd p)) d -> shaped n l -> Forall (fun p => shaped n (snd p)) (dict_set d k l).
Proof.
  intros Hd Hl. induction d as [|[k' l'] d IH]; cbn [dict_set]; [constructor; auto|].
  inversion Hd; subst. destruct (k' =? k); constructor; auto.
Qed.
Lemma get_shaped n (d : list (Z * list (list Qc))) k l :
  Forall (fun p => shaped n (snd p)) d -> dict_get d k = Some l -> shaped n l.
Proof.
  intros Hd. induction d as [|[k' l'] d IH]; cbn [dict_get]; [discriminate|].
  inversion Hd; subst. destruct (k' =? k); auto. intros X. injection X as <-. auto.
Qed.
Lemma rename_shaped n (d : list (Z * list (list Qc))) :
  Forall (fun p => shaped n (snd p)) d -> Forall (fun p => shaped n (snd p)) (rename_trend d).
Proof.
  intros Hd. unfold rename_trend. destruct (dict_get d (-1)) as [l|] eqn:El; auto.
  apply set_shaped; [|eapply get_shaped; eauto]. unfold dict_del. apply Forall_forall.
  intros p Hp. apply filter_In in Hp as [Hp _]. rewrite Forall_forall in Hd. auto.
Qed.
Lemma np_array_shaped n (l : list (list Qc)) : shaped n l -> np_array l = Ok l.
Proof.
  intros Hs. unfold np_array. destruct l as [|x l]; auto. inversion Hs; subst.
  replace (forallb _ l) with true; auto. symmetry. apply forallb_forall. intros y Hy.
  unfold shaped in Hs. rewrite Forall_forall in Hs. apply Nat.eqb_eq. apply Hs. right. auto.
Qed.
Lemma mapM_arrays n (d : list (Z * list (list Qc))) : Forall (fun p => shaped n (snd p)) d ->
  exists x, mapM (fun p => np_array (snd p)) d = Ok x.
Proof.
  induction 1 as [|p d Hp Hd (x & IH)]; cbn [mapM]; eauto. rewrite (np_array_shaped _ _ Hp). cbn [bind].
  rewrite IH. cbn [bind]. eauto.
Qed.

(** No entry of the ensemble is empty. *)
Lemma append_full (d : list (Z * list (list Qc))) k v :
  Forall (fun p => snd p <> []) d -> Forall (fun p => snd p <> []) (dict_append d k v).
Proof.
  intros Hd. induction d as [|[k' l] d IH]; cbn [dict_append].
  - constructor; auto. discriminate.
  - inversion Hd; subst. destruct (k' =? k); constructor; auto. cbn. destruct l; discriminate.
Qed.
Lemma enum_full imfs : forall k (d : list (Z * list (list Qc))),
  Forall (fun p => snd p <> []) d -> Forall (fun p => snd p <> []) (enumerate_append k d imfs).
Proof. induction imfs as [|x imfs IH]; intros k d Hd; cbn [enumerate_append]; auto. apply IH, append_full, Hd. Qed.
Lemma collect_full ts : forall d : list (Z * list (list Qc)),
  Forall (fun p => snd p <> []) d -> Forall (fun p => snd p <> []) (fold_left collect_one ts d).
Proof.
  induction ts as [|t ts IH]; intros d Hd; cbn [fold_left]; auto. apply IH. unfold collect_one. apply enum_full.
  destruct (snd t); auto. apply append_full, Hd.
Qed.
Lemma rename_full (d : list (Z * list (list Qc))) :
  Forall (fun p => snd p <> []) d -> Forall (fun p => snd p <> []) (rename_trend d).
Proof.
  intros Hd. unfold rename_trend. destruct (dict_get d (-1)) as [l|] eqn:El; auto.
  assert (Hl : l <> []).
  { clear - Hd El. induction d as [|[k' l'] d IH]; cbn [dict_get] in El; [discriminate|].
    inversion Hd; subst. destruct (k' =? -1); auto. injection El as <-. auto. }
  assert (Hdel : Forall (fun p => snd p <> []) (dict_del d (-1))).
  { unfold dict_del. apply Forall_forall. intros p Hp. apply filter_In in Hp as [Hp _].
    rewrite Forall_forall in Hd. auto. }
  generalize (zlen (dict_del d (-1))). intros z. clear - Hdel Hl. induction Hdel as [|[k' l'] d' Hp Hd IH]; cbn [dict_set].
  - constructor; auto.
  - destruct (k' =? z); constructor; auto.
Qed.

Lemma means_shaped n (d : list (Z * list (list Qc))) : Forall (fun p => snd p <> []) d ->
  Forall (fun p => shaped n (snd p)) d ->
  exists E, ensemble_mean d = Ok E /\ E = map (fun p => mean_rows (snd p)) d /\ shaped n E.
Proof.
  intros Hf Hd. assert (HE : shaped n (map (fun p => mean_rows (snd p)) d)).
  { unfold shaped. apply Forall_forall. intros v Hv. apply in_map_iff in Hv as (p & <- & Hp).
    rewrite Forall_forall in Hf, Hd. destruct (mean_rows_spec n (snd p)) as (_ & L & _); auto. }
  exists (map (fun p => mean_rows (snd p)) d). split; [|auto]. unfold ensemble_mean.
  eapply np_array_shaped; eauto.
Qed.
Lemma minus_ok n (S : list Qc) E : length S = n -> shaped n E -> exists r, minus_rows S E = Ok r.
Proof.
  intros HS HE. unfold minus_rows. destruct E as [|x E']; [eauto|].
  assert (Hx : length x = n) by (inversion HE; auto). rewrite Hx.
  assert (HL : length (sum_rows n (x :: E')) = n) by (apply shaped_sum_length; auto).
  unfold broadcast2. rewrite HL, HS, Nat.eqb_refl. eauto.
Qed.

(** The trials of a run, serial or parallel, that all ended. *)
Lemma trials_shaped c scale (S T : list Qc) k n st ts x st' :
  run_trials (trial_update gen dec c scale S T k) n st = (ts, x, st') -> Forall (trial_shaped (length S)) ts.
Proof.
  intros R. apply Forall_forall. intros t Ht. apply In_nth_error in Ht as (i & Hi).
  destruct (run_trials_nth _ _ _ _ _ _ _ _ _ _ _ _ _ _ R Hi) as (noise & N1 & N2).
  apply (trial_on_shaped _ _ _ _ _ _ (generate_length gen Hsz _ _ _ _ _ N1) N2).
Qed.
Lemma pool_shaped c scale (S T : list Qc) k procs n st ts x :
  pool_map procs (trial_update gen dec c scale S T k) n st = (ts, x) -> Forall (trial_shaped (length S)) ts.
Proof.
  unfold pool_map. destruct (procs <? 1); [intros X; injection X as <- <-; constructor|].
  generalize (chunk_lengths (Z.to_nat n) (chunksize n procs) n). intros lens. revert ts x.
  induction lens as [|m lens IH]; intros ts x; cbn [pool_chunks]; [intros X; injection X as <- <-; constructor|].
  destruct (run_trials _ m st) as [[ts1 x1] st1] eqn:R. destruct x1; [intros X; injection X as <- <-; constructor|].
  destruct (pool_chunks _ st lens) as [ts2 x2]. intros X. injection X as <- <-. apply Forall_app. split.
  - eapply trials_shaped; eauto.
  - eapply IH; reflexivity.
Qed.

(** A run that raises: before the first trial, in a worker, or in a trial of a serial run. *)
Theorem eemd_raise c o (S : list Qc) T k e o' : eemd gen dec c o S T k = (Raise e, o') ->
  o' = o \/
  (parallel c = false /\ exists T' mx mn ts,
    match T with Some t => T' = t | None => timeline (length S) = Ok T' end /\
    np_max S = Ok mx /\ np_min S = Ok mn /\
    run_trials (trial_update gen dec c (nmul (noise_width c) (nabs (nsub mx mn))) S T' k)
      (Z.to_nat (trials c)) (random o, inner o) = (ts, Some e, (random o', inner o')) /\
    E_IMF o' = E_IMF o /\ e_residue o' = e_residue o /\ all_imfs o' = collect ts).
Proof.
  unfold eemd.
  assert (HT : forall x, (let! T0 := match T with Some t => Ok t | None => timeline (length S) end in
     let! mx := np_max S in let! mn := np_min S in
     Ok (T0, nmul (noise_width c) (nabs (nsub mx mn)))) = Ok x ->
     exists mx mn, match T with Some t => fst x = t | None => timeline (length S) = Ok (fst x) end /\
       np_max S = Ok mx /\ np_min S = Ok mn /\ snd x = nmul (noise_width c) (nabs (nsub mx mn))).
  { intros x Es. destruct T as [t|].
    - cbn [bind] in Es. destruct (np_max S) as [mx|]; [|discriminate]. destruct (np_min S) as [mn|]; [|discriminate].
      cbn [bind] in Es. injection Es as <-. exists mx, mn. auto.
    - destruct (timeline (length S)) as [t|]; [|discriminate]. cbn [bind] in Es.
      destruct (np_max S) as [mx|]; [|discriminate]. destruct (np_min S) as [mn|]; [|discriminate].
      cbn [bind] in Es. injection Es as <-. exists mx, mn. auto. }
  destruct (let! T0 := match T with Some t => Ok t | None => timeline (length S) end in _) as [[T' scale]|e1];
    [|intros X; injection X as <- <-; auto].
  destruct (HT _ eq_refl) as (mx & mn & HT1 & HT2 & HT3 & HT4). clear HT. cbn [fst snd] in *. subst scale.
  set (scale := nmul (noise_width c) (nabs (nsub mx mn))).
  set (step := trial_update gen dec c scale S T' k).
  destruct (parallel c) eqn:Ep.
  - destruct (pool_map (processes c) step (trials c) (random o, inner o)) as [ts [e1|]] eqn:Em.
    + intros X. injection X as <- <-. left. destruct o. reflexivity.
    + intros X. exfalso. apply pool_shaped in Em.
      assert (H1 : Forall (fun p => shaped (length S) (snd p)) (rename_trend (collect ts)))
        by (apply rename_shaped, collect_shaped; auto).
      assert (H2 : Forall (fun p => snd p <> []) (rename_trend (collect ts)))
        by (apply rename_full, collect_full; constructor).
      cbn [all_imfs] in X. destruct (mapM_arrays _ _ H1) as (y & Y). rewrite Y in X.
      destruct (means_shaped _ _ H2 H1) as (E & E1 & _ & E2). rewrite E1 in X.
      destruct (minus_ok (length S) S E eq_refl E2) as (r & R). rewrite R in X. discriminate X.
  - destruct (run_trials step (Z.to_nat (trials c)) (random o, inner o)) as [[ts [e1|]] st] eqn:Em.
    + intros X. injection X as <- <-. right. split; auto. exists T', mx, mn, ts.
      cbn [random inner E_IMF e_residue all_imfs]. repeat (split; [assumption|]).
      split; [|auto]. destruct st. exact Em.
    + intros X. exfalso. apply trials_shaped in Em.
      assert (H1 : Forall (fun p => shaped (length S) (snd p)) (rename_trend (collect ts)))
        by (apply rename_shaped, collect_shaped; auto).
      assert (H2 : Forall (fun p => snd p <> []) (rename_trend (collect ts)))
        by (apply rename_full, collect_full; constructor).
      cbn [all_imfs] in X. destruct (mapM_arrays _ _ H1) as (y & Y). rewrite Y in X.
      destruct (means_shaped _ _ H2 H1) as (E & E1 & _ & E2). rewrite E1 in X.
      destruct (minus_ok (length S) S E eq_refl E2) as (r & R). rewrite R in X. discriminate X.
Qed.

Lemma eemd_raise_results c o (S : list Qc) T k e o' : eemd gen dec c o S T k = (Raise e, o') ->
  eemd_imfs_and_residue o' = eemd_imfs_and_residue o.
Proof.
  intros R. destruct (eemd_raise _ _ _ _ _ _ _ R) as [->|(_ & T' & mx & mn & ts & _ & _ & _ & _ & E1 & E2 & _)]; auto.
  unfold eemd_imfs_and_residue. rewrite E1, E2. reflexivity.
Qed.

(** After any program: the results of the last run that ended. *)
Theorem eemd_last_run o before c S T k E o' more :
  eemd gen dec c (after_all (noise_seed gen) (eemd gen dec) o before) S T k = (Ok E, o') ->
  all_raise (noise_seed gen) (eemd gen dec) o' more ->
  exists r, eemd_imfs_and_residue (after_all (noise_seed gen) (eemd gen dec) o (before ++ Go c S T k :: more)) = Ok (E, r) /\
    length r = length S /\ adds_up (E ++ [r]) S.
Proof.
  intros R M. rewrite after_app. cbn [after_all fold_left does]. rewrite R. cbn [snd].
  fold (after_all (noise_seed gen) (eemd gen dec) o' more).
  rewrite (all_raise_get _ _ eemd_imfs_and_residue) with (2 := eemd_raise_results); auto.
  exact (eemd_adds_up gen dec Hsz Hsh _ _ _ _ _ _ _ R).
Qed.
Theorem eemd_no_run o acts : all_raise (noise_seed gen) (eemd gen dec) o acts ->
  eemd_imfs_and_residue (after_all (noise_seed gen) (eemd gen dec) o acts) = eemd_imfs_and_residue o.
Proof. apply all_raise_get; [reflexivity|]. exact eemd_raise_results. Qed.

(** What a failing trial leaves. *)
Lemma run_trials_fails c scale (S T : list Qc) k n st ts e st' :
  run_trials (trial_update gen dec c scale S T k) n st = (ts, Some e, st') ->
  (length ts < n)%nat /\
  exists st1, fst st1 = gstate gen c scale (length S) (length ts) (fst st) /\
    trial_update gen dec c scale S T k st1 = (Raise e, st').
Proof.
  revert st ts. induction n as [|n IH]; intros st ts; cbn [run_trials]; [discriminate|].
  destruct (trial_update gen dec c scale S T k st) as [[t|e1] st1] eqn:Es.
  - destruct (run_trials _ n st1) as [[ts1 x1] st2] eqn:R. intros X. injection X as <- -> ->.
    destruct (IH _ _ R) as (H1 & st3 & H2 & H3). split; [cbn; lia|]. exists st3. split; auto.
    cbn [length gstate]. destruct (trial_update_spec _ _ _ _ _ _ _ _ _ _ Es) as [_ E3]. rewrite <- E3. exact H2.
  - intros X. injection X as <- <- <-. split; [cbn; lia|]. exists st. auto.
Qed.
Lemma stream_app kind scale n g vs g' v g'' :
  noise_stream gen kind scale n g vs g' -> draws gen kind scale n g' v g'' ->
  noise_stream gen kind scale n g (vs ++ [v]) g''.
Proof.
  revert g. induction vs as [|w vs IH]; intros g; cbn [noise_stream app].
  - intros ->. intros X. exists g''. auto.
  - intros (g1 & X1 & X2) X3. exists g1. auto.
Qed.

(** A serial run that raises in a trial: the ensemble holds the rows of the trials before. *)
Theorem eemd_failed_ensemble c o (S : list Qc) T k e o' :
  parallel c = false -> separate_trends c = false -> noise_kind c <> OtherNoise ->
  eemd gen dec c o S T k = (Raise e, o') -> o' = o \/
  exists T' w noises last rs, spread S w /\
    match T with Some t => T' = t | None => timeline (length S) = Ok T' end /\
    serial_noise gen (noise_kind c) (noise_width c * w)%Qc (length S) (random o) (random o') (noises ++ [last]) /\
    length noises = length rs /\ (length rs < Z.to_nat (trials c))%nat /\
    (forall i r, nth_error rs i = Some r ->
       exists X d d', noisy S (nth i noises []) X /\ run dec d X T' k = (Ok r, d')) /\
    (exists X d, noisy S last X /\ run dec d X T' k = (Raise e, inner o')) /\
    map fst (all_imfs o') = zseq 0 (fold_right Nat.max O (map (@length _) rs)) /\
    forall j p, nth_error (all_imfs o') j = Some p -> snd p = column j rs.
Proof.
  intros Hp Hsep Hk R. destruct (eemd_raise _ _ _ _ _ _ _ R) as [->|(_ & T' & mx & mn & ts & H1 & H2 & H3 & H4 & _ & _ & H5)]; auto.
  right. unfold trial in *. apply np_max_spec in H2 as [X1 X2]. apply np_min_spec in H3 as [M1 M2].
  assert (Hw : nmul (noise_width c) (nabs (nsub mx mn)) = (noise_width c * (mx - mn))%Qc).
  { change (noise_width c * Qc_abs (mx - mn) = noise_width c * (mx - mn))%Qc. f_equal.
    specialize (M2 mx X1). destruct (Qc_abs_spec (mx - mn)) as [A1 [A2|A2]]; auto.
    assert ((mx - mn = 0)%Qc) by (rewrite A2 in A1; qclra). rewrite A2, H. reflexivity. }
  rewrite Hw in H4. clear Hw. set (scale := (noise_width c * (mx - mn))%Qc) in *.
  set (noises := map (fun i => drawn gen c scale (length S) i (random o)) (seq 0 (length ts))).
  assert (HLn : length noises = length ts) by (unfold noises; rewrite map_length, seq_length; auto).
  assert (Hnth : forall i, (i < length ts)%nat -> nth i noises [] = drawn gen c scale (length S) i (random o)).
  { intros i Hi. unfold noises.
    rewrite nth_indep with (d' := drawn gen c scale (length S) O (random o)) by (rewrite map_length, seq_length; auto).
    rewrite (map_nth (fun i => drawn gen c scale (length S) i (random o))), seq_nth by auto. reflexivity. }
  assert (Hone : forall i t, nth_error ts i = Some t -> exists noise,
     draw gen c scale (length S) i (random o) = Ok noise /\ trial_on dec (separate_trends c) S T' k noise t)
    by (intros i t Hi; exact (run_trials_nth _ _ _ _ _ _ _ _ _ _ _ _ _ _ H4 Hi)).
  destruct (run_trials_fails _ _ _ _ _ _ _ _ _ _ H4) as (Hlt & [g1 d1] & Hg & Hf). cbn [fst] in Hg. unfold trial in *.
  unfold trial_update in Hf. cbn [fst snd] in Hf.
  destruct (generate_noise gen c g1 scale (length S)) as [[v|e2] g2] eqn:Eg.
  2:{ exfalso. unfold generate_noise in Eg. destruct (noise_kind c); try congruence.
      - destruct (normal gen g1 scale (length S)); discriminate.
      - destruct (uniform gen g1 _ _ (length S)); discriminate. }
  rewrite Hsep in Hf.
  destruct (run dec d1 (vadd S v) T' k) as [[imfs|e2] d2] eqn:Er; [discriminate|].
  assert (He : e2 = e /\ g2 = random o' /\ d2 = inner o') by (injection Hf; auto). destruct He as (-> & -> & ->).
  assert (Hlv : length v = length S) by (eapply (generate_length gen Hsz c g1 scale); rewrite Eg; reflexivity).
  exists T', (mx - mn)%Qc, noises, v, (map fst ts). fold scale.
  split. { exists mx, mn. repeat (split; [assumption|]). split; [|reflexivity]. intros x Hx. split; auto. }
  split; auto. split.
  { unfold serial_noise. apply stream_app with (g' := g1); [|apply generate_draws; auto].
    rewrite Hg. apply stream_of_draws. intros i Hi.
    destruct (nth_error ts i) as [t|] eqn:Et; [|apply nth_error_None in Et; unfold trial in *; lia].
    destruct (Hone _ _ Et) as (noise & N & _). eauto. }
  rewrite map_length. split; auto. split; auto. split.
  { intros i r Hi. destruct (nth_error ts i) as [t|] eqn:Et.
    2:{ exfalso. apply nth_error_None in Et. assert (nth_error (map fst ts) i <> None) as Hx by congruence.
        apply nth_error_Some in Hx. rewrite map_length in Hx. lia. }
    apply (map_nth_error fst) in Et as Ef. rewrite Ef in Hi. injection Hi as <-. destruct (Hone _ _ Et) as (noise & N1 & (d & d' & imfs & N2 & N3)). rewrite Hsep in N3. subst t.
    assert (Hi : (i < length ts)%nat) by (apply nth_error_Some; congruence).
    rewrite (Hnth i Hi). unfold drawn. rewrite N1. cbn [fst].
    assert (Hl : length noise = length S) by (eapply generate_length; eauto).
    exists (vadd S noise), d, d'. split; [|auto]. split; auto. split; [rewrite vadd_length; auto|].
    intros j. apply nth_vadd. auto. }
  split.
  { exists (vadd S v), d1. split; [|auto]. split; auto. split; [rewrite vadd_length; auto|].
    intros j. apply nth_vadd. auto. }
  assert (Hc : all_imfs o' = tab 0 (cols (map fst ts))).
  { rewrite H5. unfold collect. change (@nil (Z * list (list Qc))) with (tab 0 (@nil (list (list Qc)))).
    rewrite collect_plain; [reflexivity|]. intros t Ht. apply In_nth_error in Ht as (i & Hi).
    destruct (Hone _ _ Hi) as (noise & _ & (d & d' & imfs & _ & N3)). rewrite Hsep in N3. subst t. reflexivity. }
  rewrite Hc. rewrite tab_keys, cols_length. split; [reflexivity|].
  intros j p Hj. apply (map_nth_error snd) in Hj. rewrite tab_vals in Hj.
  apply nth_error_nth with (d := []) in Hj. rewrite cols_nth in Hj. auto.
Qed.
Theorem eemd_parallel_failed c o (S : list Qc) T k e o' : parallel c = true ->
  eemd gen dec c o S T k = (Raise e, o') -> o' = o.
Proof.
  intros Hp R. destruct (eemd_raise _ _ _ _ _ _ _ R) as [->|(Hp' & _)]; auto. congruence.
Qed.
End Eemd.

Section Ceemdan.
Context {G : Type}.
Variable gen : generator Qc G.
Variable std : list Qc -> Qc.
Variable emd_of : list Qc -> option (list Qc) -> Z -> res (list (list Qc)).
Variable arrival : list (list (list Qc)) -> list (list (list Qc)).
Lemma ceemdan_raise_results c o S T k e o' : ceemdan gen std emd_of arrival c o S T k = (Raise e, o') ->
  ceemdan_imfs_and_residue o' = ceemdan_imfs_and_residue o.
Proof.
  unfold ceemdan. destruct (all_noises gen c (c_random o) _) as [noises g].
  destruct (bind _ _); [discriminate|]. intros X. injection X as <- <-. reflexivity.
Qed.
Theorem ceemdan_last_run o before c S T k C o' more : std S <> 0%Qc ->
  ceemdan gen std emd_of arrival c (after_all (c_noise_seed gen) (ceemdan gen std emd_of arrival) o before) S T k = (Ok C, o') ->
  all_raise (c_noise_seed gen) (ceemdan gen std emd_of arrival) o' more ->
  exists r, ceemdan_imfs_and_residue
      (after_all (c_noise_seed gen) (ceemdan gen std emd_of arrival) o (before ++ Go c S T k :: more)) = Ok (C, r) /\
    r = repeat 0%Qc (length S) /\ adds_up C S.
Proof.
  intros HS R M. rewrite after_app. cbn [after_all fold_left does]. rewrite R. cbn [snd].
  fold (after_all (c_noise_seed gen) (ceemdan gen std emd_of arrival) o' more).
  rewrite (all_raise_get _ _ ceemdan_imfs_and_residue) with (2 := ceemdan_raise_results); auto.
  destruct (ceemdan_spec _ _ _ _ _ _ _ _ _ _ _ HS R) as (H1 & _ & r & H2 & H3). eauto.
Qed.
Theorem ceemdan_no_run o acts : all_raise (c_noise_seed gen) (ceemdan gen std emd_of arrival) o acts ->
  ceemdan_imfs_and_residue (after_all (c_noise_seed gen) (ceemdan gen std emd_of arrival) o acts) =
  ceemdan_imfs_and_residue o.
Proof. apply all_raise_get; [reflexivity|]. exact ceemdan_raise_results. Qed.
End Ceemdan.
