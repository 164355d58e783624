(** * CopiesProofs: families of copies (C102). *)
From Verif Require Import PyFacts Copies CopiesSpec FailedSpec EmdSym.
From Coq Require Import Lia.
Open Scope nat_scope.

Lemma set_at_length {X} (l : list X) i x : length (set_at l i x) = length l.
Proof. revert i. induction l; intros [|i]; cbn; auto. Qed.
Lemma set_at_same {X} (l : list X) i x : i < length l -> nth_error (set_at l i x) i = Some x.
Proof. revert i. induction l; intros [|i]; cbn; intros; auto; try lia. apply IHl. lia. Qed.
Lemma set_at_other {X} (l : list X) i j x : i <> j -> nth_error (set_at l i x) j = nth_error l j.
Proof. revert i j. induction l; intros [|i] [|j] N; cbn; auto; congruence. Qed.

Section Proofs.
Context {A C H W : Type}.
Variable K : kind A C H W.
Notation exec1 := (exec1 K).
Notation exec := (exec K).

(** The cell of an object never changes. *)
Definition cell_of (b : shelf H W) (i : nat) : option nat := option_map fst (nth_error (objs b) i).
Lemma relative_cell (b : shelf H W) a i : relative b a i = match cell_of b i with Some a' => a' =? a | None => false end.
Proof. unfold relative, cell_of. destruct (nth_error (objs b) i) as [[]|]; reflexivity. Qed.

Lemma found (b : shelf H W) i : sound b -> i < length (objs b) -> exists a h w,
  nth_error (objs b) i = Some (a, w) /\ nth_error (cells b) a = Some h /\ a < length (cells b).
Proof.
  intros Hs Hi. destruct (nth_error (objs b) i) as [[a w]|] eqn:E; [|apply nth_error_None in E; lia].
  assert (Ha : a < length (cells b)).
  { unfold sound in Hs. rewrite Forall_forall in Hs. apply (Hs (a, w)). eapply nth_error_In; eauto. }
  destruct (nth_error (cells b) a) as [h|] eqn:Eh; [eauto 8|apply nth_error_None in Eh; lia].
Qed.

Lemma sound_grow (b : shelf H W) l x : sound b -> fst x < length (cells b ++ l) -> sound (MkShelf (cells b ++ l) (objs b ++ [x])).
Proof.
  intros Hs Hx. unfold sound. cbn [cells objs]. apply Forall_app. split; [|repeat constructor; exact Hx].
  unfold sound in Hs. rewrite app_length. eapply Forall_impl; [|exact Hs]. cbn. intros; lia.
Qed.
Lemma sound_set (b : shelf H W) a h : sound b -> sound (MkShelf (set_at (cells b) a h) (objs b)).
Proof. intros Hs. unfold sound. cbn [cells objs]. rewrite set_at_length. exact Hs. Qed.
Lemma sound_put (b : shelf H W) a h i x : sound b -> fst x < length (cells b) ->
  sound (MkShelf (set_at (cells b) a h) (set_at (objs b) i x)).
Proof.
  intros Hs Hx. unfold sound in *. cbn [cells objs]. rewrite set_at_length. revert i.
  induction Hs as [|y l Hy Hs IH]; intros [|i]; cbn; constructor; auto.
Qed.

(** One statement: soundness, number of objects, cells of old objects. *)
Lemma exec1_step (b : shelf H W) (t : stmt A C) n : sound b -> length (objs b) = n -> legal n [t] ->
  sound (snd (exec1 b t)) /\
  length (objs (snd (exec1 b t))) = match t with Copy _ | Clone _ => Datatypes.S n | _ => n end /\
  (forall i, i < n -> cell_of (snd (exec1 b t)) i = cell_of b i).
Proof.
  intros Hs Hn Ht. assert (Hi : (match t with Copy i | Clone i | SeedAt i _ | RunAt i _ _ _ _ => i end) < length (objs b)).
  { rewrite Hn. destruct t; cbn in Ht; apply Ht. }
  destruct (found b _ Hs Hi) as (a & h & w & E1 & E2 & Ha).
  destruct t as [i|i|i s|i c X T k]; cbn [Copies.exec1] in *; rewrite E1, E2; cbn [snd cells objs].
  - split; [|split; [rewrite app_length; cbn; lia|]].
    + pose proof (sound_grow b [] (a, w) Hs) as X. rewrite app_nil_r in X. apply X. exact Ha.
    + intros j Hj. unfold cell_of. cbn [objs]. rewrite nth_error_app1 by lia. reflexivity.
  - split; [|split; [rewrite app_length; cbn; lia|]].
    + apply sound_grow; [exact Hs|]. rewrite app_length. cbn. lia.
    + intros j Hj. unfold cell_of. cbn [objs]. rewrite nth_error_app1 by lia. reflexivity.
  - split; [apply sound_set; exact Hs|]. split; [exact Hn|]. reflexivity.
  - destruct (k_run K c h w X T k) as [r [h' w']]. cbn [snd cells objs].
    split; [apply sound_put; [exact Hs|exact Ha]|]. split; [rewrite set_at_length; exact Hn|].
    intros j Hj. unfold cell_of. cbn [objs]. destruct (Nat.eq_dec i j) as [->|N].
    + rewrite set_at_same, E1 by lia. reflexivity.
    + rewrite set_at_other by exact N. reflexivity.
Qed.

Lemma legal_cons n (t : stmt A C) p : legal n (t :: p) <->
  legal n [t] /\ legal (match t with Copy _ | Clone _ => Datatypes.S n | _ => n end) p.
Proof. destruct t; cbn; tauto. Qed.

Lemma exec_cells p : forall b, sound b -> legal (length (objs b)) p ->
  forall i, i < length (objs b) -> cell_of (snd (exec b p)) i = cell_of b i.
Proof.
  induction p as [|t p IH]; intros b Hs Hl i Hi; [reflexivity|].
  apply legal_cons in Hl as [H1 H2]. destruct (exec1_step b t _ Hs eq_refl H1) as (S1 & S2 & S3).
  cbn [Copies.exec]. destruct (exec1 b t) as [l b1]. cbn [snd] in *.
  specialize (IH b1 S1 ltac:(rewrite S2; exact H2) i ltac:(rewrite S2; destruct t; lia)).
  destruct (exec b1 p) as [l' b2]. cbn [snd] in *. rewrite IH. apply S3. exact Hi.
Qed.

Hypothesis HK : heedless K.

Lemma single_heedless acts : forall h w1 w2,
  fst (single K h w1 acts) = fst (single K h w2 acts) /\
  fst (snd (single K h w1 acts)) = fst (snd (single K h w2 acts)).
Proof.
  induction acts as [|[s|c X T k] acts IH]; intros h w1 w2; cbn [single]; [cbn; auto|apply IH|].
  destruct (HK c h w1 w2 X T k) as [K1 K2].
  destruct (k_run K c h w1 X T k) as [r1 [h1 v1]], (k_run K c h w2 X T k) as [r2 [h2 v2]]. cbn in K1, K2. subst r2 h2.
  destruct (IH h1 v1 v2) as [I1 I2].
  destruct (single K h1 v1 acts) as [l1 o1], (single K h1 v2 acts) as [l2 o2]. cbn in *. subst. auto.
Qed.

Lemma family_app {R} (b : shelf H W) a (l l' : list (nat * R)) : family_results b a (l ++ l') = family_results b a l ++ family_results b a l'.
Proof. unfold family_results. rewrite filter_app, map_app. reflexivity. Qed.

Theorem family p : forall b a h w, sound b -> legal (length (objs b)) p -> nth_error (cells b) a = Some h ->
  let '(l, b') := exec b p in
  family_results b' a l = fst (single K h w (family_acts b' a p)) /\
  nth_error (cells b') a = Some (fst (snd (single K h w (family_acts b' a p)))).
Proof.
  induction p as [|t p IH]; intros b a h w Hs Hl Ha; [cbn; auto|].
  pose proof Hl as Hl'. apply legal_cons in Hl' as [H1 H2].
  destruct (exec1_step b t _ Hs eq_refl H1) as (S1 & S2 & S3).
  pose proof (exec_cells (t :: p) b Hs Hl) as HC.
  cbn [Copies.exec] in *. destruct (exec1 b t) as [l b1] eqn:E1. cbn [snd] in *.
  assert (IH' := fun h w => IH b1 a h w S1 ltac:(rewrite S2; exact H2)). clear IH.
  destruct (exec b1 p) as [l' b2]. cbn [snd] in *.
  assert (Ht : (match t with Copy i | Clone i | SeedAt i _ | RunAt i _ _ _ _ => i end) < length (objs b)).
  { destruct t; cbn in H1; apply H1. }
  destruct (found b _ Hs Ht) as (a0 & h0 & w0 & F1 & F2 & Ha0).
  assert (Hal : a < length (cells b)) by (apply nth_error_Some; congruence).
  rewrite family_app.
  destruct t as [i|i|i s|i c X T k]; cbn [Copies.exec1 family_acts] in *; rewrite F1, F2 in E1.
  - apply pair_inv in E1 as [<- <-]. apply IH'. exact Ha.
  - apply pair_inv in E1 as [<- <-]. apply IH'. cbn [cells]. rewrite nth_error_app1 by exact Hal. exact Ha.
  - apply pair_inv in E1 as [<- <-]. rewrite relative_cell, (HC i Ht). unfold cell_of. rewrite F1. cbn [option_map fst].
    destruct (Nat.eqb_spec a0 a) as [->|N].
    + cbn [single]. apply IH'. cbn [cells]. rewrite set_at_same by exact Hal. congruence.
    + apply IH'. cbn [cells]. rewrite set_at_other by exact N. exact Ha.
  - destruct (k_run K c h0 w0 X T k) as [r [h' w']] eqn:ER. apply pair_inv in E1 as [<- <-].
    assert (HR : relative b2 a i = (a0 =? a)).
    { rewrite relative_cell, (HC i Ht). unfold cell_of. rewrite F1. reflexivity. }
    unfold family_results at 1. cbn [filter fst map]. rewrite HR.
    destruct (Nat.eqb_spec a0 a) as [->|N].
    + cbn [map snd app single]. assert (h0 = h) by congruence. subst h0.
      destruct (HK c h w0 w X T k) as [K1 K2]. rewrite ER in K1, K2.
      destruct (k_run K c h w X T k) as [r2 [h2 w2]]. cbn in K1, K2. subst r2 h2.
      specialize (IH' h' w2). cbn [cells] in IH'. rewrite set_at_same in IH' by exact Hal.
      destruct (IH' eq_refl) as [I1 I2].
      destruct (single K h' w2 (family_acts b2 a p)) as [rs o]. cbn in *. rewrite I1. auto.
    + cbn [map app]. apply IH'. cbn [cells]. rewrite set_at_other by exact N. exact Ha.
Qed.

(** Only runs of an object change what it stores. *)
Theorem spared p : forall b i a w, sound b -> legal (length (objs b)) p -> spares i p ->
  nth_error (objs b) i = Some (a, w) -> nth_error (objs (snd (exec b p))) i = Some (a, w).
Proof.
  induction p as [|t p IH]; intros b i a w Hs Hl Hsp Ei; [exact Ei|].
  apply legal_cons in Hl as [H1 H2]. destruct (exec1_step b t _ Hs eq_refl H1) as (S1 & S2 & S3).
  inversion Hsp as [|t' p' Hh Hr]; subst. cbn [Copies.exec]. destruct (exec1 b t) as [l b1] eqn:E1. cbn [snd] in *.
  assert (Hil : i < length (objs b)) by (apply nth_error_Some; congruence).
  assert (E2 : nth_error (objs b1) i = Some (a, w)).
  { assert (Ht : (match t with Copy i | Clone i | SeedAt i _ | RunAt i _ _ _ _ => i end) < length (objs b)).
    { destruct t; cbn in H1; apply H1. }
    destruct (found b _ Hs Ht) as (a0 & h0 & w0 & F1 & F2 & Ha0).
    destruct t as [j|j|j s|j c X T k]; cbn [Copies.exec1] in *; rewrite F1, F2 in E1.
    - apply pair_inv in E1 as [_ <-]. cbn [objs]. rewrite nth_error_app1 by exact Hil. exact Ei.
    - apply pair_inv in E1 as [_ <-]. cbn [objs]. rewrite nth_error_app1 by exact Hil. exact Ei.
    - apply pair_inv in E1 as [_ <-]. exact Ei.
    - destruct (k_run K c h0 w0 X T k) as [r [h' w']]. apply pair_inv in E1 as [_ <-]. cbn [objs].
      rewrite set_at_other by exact Hh. exact Ei. }
  specialize (IH b1 i a w S1 ltac:(rewrite S2; exact H2) Hr E2). destruct (exec b1 p). exact IH.
Qed.
End Proofs.

Lemma eemd_heedless {A} `{Num A} {G D} (gen : generator A G) (dec : decomposer A D) : heedless (eemd_kind gen dec).
Proof.
  intros c h w1 w2 X T k. cbn [k_run eemd_kind]. unfold eemd. cbn [random inner E_IMF e_residue all_imfs].
  destruct (bind _ _) as [[T' scale]|e]; [|cbn; auto].
  destruct (if parallel c then _ else _) as [[ts [e|]] st]; cbn; auto.
  destruct (mapM _ _); cbn; auto. destruct (ensemble_mean _); cbn; auto. destruct (minus_rows _ _); cbn; auto.
Qed.
Lemma ceemdan_heedless {A} `{Num A} {G} (gen : generator A G) std emd_of arrival : heedless (ceemdan_kind gen std emd_of arrival).
Proof.
  intros c g w1 w2 X T k. cbn [k_run ceemdan_kind]. unfold ceemdan. cbn [c_random C_IMF c_residue].
  destruct (all_noises _ _ _ _) as [noises g']. destruct (bind _ _); cbn; auto.
Qed.

(** ** One object of either kind is the object of Eemd.v or Ceemdan.v *)
Lemma single_eemd {A} `{Num A} {G D} (gen : generator A G) (dec : decomposer A D) acts : forall o,
  single (eemd_kind gen dec) (random o, inner o) (E_IMF o, e_residue o, all_imfs o) acts =
  let o' := after_all (noise_seed gen) (eemd gen dec) o acts in
  (returned (noise_seed gen) (eemd gen dec) o acts, ((random o', inner o'), (E_IMF o', e_residue o', all_imfs o'))).
Proof.
  induction acts as [|[s|c X T k] acts IH]; intros o; [reflexivity| |].
  - cbn [single returned]. cbv zeta. unfold after_all. cbn [fold_left does].
    specialize (IH (noise_seed gen o s)). exact IH.
  - cbn [single returned]. cbv zeta. unfold after_all. cbn [fold_left does]. cbn [k_run eemd_kind fst snd].
    assert (Eo : MkESt (random o) (inner o) (E_IMF o) (e_residue o) (all_imfs o) = o) by (destruct o; reflexivity).
    rewrite Eo. destruct (eemd gen dec c o X T k) as [r o1]. cbn [fst snd]. rewrite (IH o1). reflexivity.
Qed.
Lemma single_ceemdan {A} `{Num A} {G} (gen : generator A G) std emd_of arrival acts : forall o,
  single (ceemdan_kind gen std emd_of arrival) (c_random o) (C_IMF o, c_residue o) acts =
  let o' := after_all (c_noise_seed gen) (ceemdan gen std emd_of arrival) o acts in
  (returned (c_noise_seed gen) (ceemdan gen std emd_of arrival) o acts, (c_random o', (C_IMF o', c_residue o'))).
Proof.
  induction acts as [|[s|c X T k] acts IH]; intros o; [reflexivity| |].
  - cbn [single returned]. cbv zeta. unfold after_all. cbn [fold_left does].
    specialize (IH (c_noise_seed gen o s)). exact IH.
  - cbn [single returned]. cbv zeta. unfold after_all. cbn [fold_left does]. cbn [k_run ceemdan_kind fst snd].
    assert (Eo : MkCSt (c_random o) (C_IMF o) (c_residue o) = o) by (destruct o; reflexivity).
    rewrite Eo. destruct (ceemdan gen std emd_of arrival c o X T k) as [r o1]. cbn [fst snd]. rewrite (IH o1). reflexivity.
Qed.
