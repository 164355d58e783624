(** * StatsProofs: the ensemble statistics describe the trials. *)
From Verif Require Import PyFacts QcFacts Eemd EemdStats Spec EemdSpec StatsSpec EmdProofs EmdExact EemdProofs EemdExact.
From Coq Require Import QArith Qcanon.
Open Scope Z_scope.

Lemma by_order_cols {A} (rs : list (list (list A))) : by_order rs = cols rs.
Proof. unfold by_order. rewrite <- cols_length. symmetry. apply cols_map. Qed.

Lemma shaped_np_array n (l : list (list Qc)) : shaped n l -> np_array l = Ok l.
Proof.
  intros Hs. unfold np_array. destruct l as [|x l]; auto. inversion Hs as [|x' l' Hx Hl]. subst.
  replace (forallb _ l) with true; auto. symmetry. apply forallb_forall. intros y Hy.
  rewrite Forall_forall in Hl. apply Nat.eqb_eq. rewrite (Hl y Hy). auto.
Qed.

Lemma is_std_rows sqrt n (l : list (list Qc)) : l <> [] -> shaped n l -> is_std sqrt n l (std_rows sqrt l).
Proof.
  intros Hne Hs. pose proof (mean_rows_spec n l Hne Hs) as Hm. exists (mean_rows l). split; auto.
  pose proof (proj1 (proj2 Hm)) as Lm.
  set (dev := map (fun r => map (fun d => nmul d d) (vsub r (mean_rows l))) l).
  assert (Hd : shaped n dev).
  { apply Forall_forall. intros x Hx. apply in_map_iff in Hx as (r & <- & Hr). rewrite map_length.
    unfold shaped in Hs. rewrite Forall_forall in Hs. rewrite vsub_length; auto. rewrite Lm. auto. }
  assert (E : std_rows sqrt l = map (fun s => sqrt (ndiv s (nofZ (zlen l)))) (sum_rows n dev)).
  { destruct l as [|x l']; [congruence|]. assert (Hx : length x = n) by (inversion Hs; auto). unfold std_rows. rewrite Hx. reflexivity. }
  rewrite E. split; [rewrite map_length; apply shaped_sum_length; auto|].
  intros i Hi. exists (ndiv (nth i (sum_rows n dev) 0%Qc) (nofZ (zlen l))). split.
  - pose proof (mean_rows_spec n dev) as HD. assert (Hdn : dev <> []) by (unfold dev; destruct l; [congruence|discriminate]).
    specialize (HD Hdn Hd). destruct HD as (_ & HL & HD). specialize (HD i Hi).
    assert (EM : mean_rows dev = map (fun s => ndiv s (nofZ (zlen dev))) (sum_rows n dev)).
    { clearbody dev. destruct dev as [|x dev']; [congruence|]. assert (Hx : length x = n) by (inversion Hd; auto). unfold mean_rows at 1. rewrite Hx. reflexivity. }
    assert (ZL : zlen dev = zlen l) by (unfold zlen, dev; rewrite map_length; auto).
    assert (LL : length dev = length l) by (unfold dev; rewrite map_length; auto).
    rewrite EM in HD. rewrite ZL, LL in HD.
    rewrite nth_indep with (d' := ndiv 0%Qc (nofZ (zlen l))) in HD by (rewrite map_length, shaped_sum_length; auto).
    rewrite map_nth with (f := fun s => ndiv s (nofZ (zlen l))) in HD. rewrite HD.
    unfold total_at, dev. rewrite map_map. f_equal. apply map_ext_in. intros r Hr.
    unfold shaped in Hs. rewrite Forall_forall in Hs. specialize (Hs r Hr).
    change 0%Qc with (nmul 0%Qc 0%Qc) at 1. rewrite map_nth with (f := fun d => nmul d d).
    rewrite nth_vsub by congruence. reflexivity.
  - rewrite nth_indep with (d' := sqrt (ndiv 0%Qc (nofZ (zlen l)))) by (rewrite map_length, shaped_sum_length; auto).
    rewrite map_nth with (f := fun s => sqrt (ndiv s (nofZ (zlen l)))). reflexivity.
Qed.

Section Stats.
Context {G D : Type}.
Variable gen : generator Qc G.
Variable dec : decomposer Qc D.
Hypothesis Hsz : sized gen.
Hypothesis Hsh : shapely dec.

(** The ensemble, as columns of the trials' rows. *)
Lemma tab_of_trials n (sep : bool) (ts : list (@trial Qc)) :
  (forall t, In t ts -> shaped n (fst t) /\
     if sep then exists v, snd t = Some v /\ length v = n else snd t = None) ->
  exists C, rename_trend (collect ts) = tab 0 C /\ forall l, In l C -> l <> [] /\ shaped n l.
Proof.
  intros Hall.
  assert (Hcols : forall l, In l (cols (map fst ts)) -> l <> [] /\ shaped n l).
  { intros l Hl. apply In_nth with (d := []) in Hl as (j & Hj & <-). rewrite cols_nth. rewrite cols_length in Hj. split.
    - apply column_nonempty. auto.
    - apply Forall_forall. intros x Hx. apply In_column in Hx as (r & Hr & Hx).
      apply in_map_iff in Hr as (t & <- & Ht). apply Hall in Ht as [Ht _]. unfold shaped in Ht.
      rewrite Forall_forall in Ht. auto. }
  destruct ts as [|t0 ts0] eqn:Ets.
  { exists []. split; [reflexivity|]. intros l []. }
  rewrite <- Ets in *. destruct sep.
  - assert (Hsome : exists tr, map snd ts = map Some tr).
    { clear - Hall. induction ts as [|t ts IH]; [exists []; reflexivity|].
      destruct IH as (tr & Et); [intros; apply Hall; right; auto|].
      destruct (proj2 (Hall t (or_introl eq_refl))) as (v & Ev & _). exists (v :: tr). cbn [map]. rewrite Ev, Et. reflexivity. }
    destruct Hsome as (tr & Etr). assert (Hne : ts <> []) by (rewrite Ets; discriminate).
    exists (cols (map fst ts) ++ [tr]). split; [apply (rename_trends ts tr Hne Etr)|].
    intros l Hl. apply in_app_iff in Hl as [Hl|[<-|[]]]; auto. split.
    + intros ->. destruct ts; [congruence|discriminate].
    + apply Forall_forall. intros v Hv. assert (Hv' : In (Some v) (map snd ts)) by (rewrite Etr; apply in_map; auto).
      apply in_map_iff in Hv' as (t & Et & Ht). destruct (proj2 (Hall t Ht)) as (v' & Ev & L). congruence.
  - exists (cols (map fst ts)). split; auto. apply rename_plain. intros t Ht. apply (proj2 (Hall t Ht)).
Qed.

Lemma trial_shape c scale S T k i g noise t :
  draw gen c scale (length S) i g = Ok noise -> trial_on dec (separate_trends c) S T k noise t ->
  shaped (length S) (fst t) /\
  if separate_trends c then exists v, snd t = Some v /\ length v = length S else snd t = None.
Proof.
  intros Hd (d & d' & imfs & R & Et). apply (generate_length gen Hsz) in Hd.
  apply Hsh in R as [R1 R2]. rewrite vadd_length in * by auto. destruct (separate_trends c).
  - destruct Et as (ii & v & Et & ->). apply R2 in Et. apply Forall_app in Et as [E1 E2]. cbn [fst snd].
    split; auto. exists v. split; auto. inversion E2; auto.
  - subst t. auto.
Qed.

Lemma tab_means (C : list (list (list Qc))) n : (forall l, In l C -> l <> [] /\ shaped n l) ->
  forall f : list (list Qc) -> list Qc, (forall l, l <> [] -> shaped n l -> length (f l) = n) ->
  np_array (map (fun p => f (snd p)) (tab 0 C)) = Ok (map f C) /\ shaped n (map f C).
Proof.
  intros HS f Hf. assert (X : shaped n (map f C)).
  { apply Forall_forall. intros x Hx. apply in_map_iff in Hx as (l & <- & Hl). apply HS in Hl as []. auto. }
  split; auto. replace (map (fun p => f (snd p)) (tab 0 C)) with (map f C).
  - apply (shaped_np_array n). auto.
  - rewrite <- (tab_vals 0 C) at 1. rewrite map_map. reflexivity.
Qed.

Lemma eemd_tab c o S T k E o' : eemd gen dec c o S T k = (Ok E, o') ->
  exists C, all_imfs o' = tab 0 C /\ E = map (@mean_rows Qc _) C /\
    forall l, In l C -> l <> [] /\ shaped (length S) l.
Proof.
  intros He. destruct (eemd_ok _ _ _ _ _ _ _ _ _ He) as (T' & mx & mn & ts & r & H1 & H2 & _ & _ & H5 & H6 & H7 & _).
  destruct (tab_of_trials (length S) (separate_trends c) ts) as (C & HC & HS).
  { intros t Ht. apply In_nth_error in Ht as (i & Hi). apply H5 in Hi as (noise & N1 & N2). eapply trial_shape; eauto. }
  exists C. rewrite H6 in *. split; auto. split; auto. rewrite H7, HC. apply map_mean_tab.
Qed.

(** A run that raises keeps the results of the previous run. *)
Theorem eemd_raises c o S T k e o' : eemd gen dec c o S T k = (Raise e, o') ->
  eemd_imfs_and_residue o' = eemd_imfs_and_residue o /\ (parallel c = true -> all_imfs o' = all_imfs o).
Proof.
  unfold eemd. destruct (bind _ _) as [[T' scale]|e0]; [|intros X; injection X as _ <-; auto].
  set (step := trial_update gen dec c scale S T' k).
  set (R := if parallel c then _ else _).
  assert (HR : forall ts st, R = (ts, None, st) -> forall t, In t ts -> exists i g noise,
     draw gen c scale (length S) i g = Ok noise /\ trial_on dec (separate_trends c) S T' k noise t).
  { intros ts st HR t Ht. apply In_nth_error in Ht as (i & Hi). unfold R in HR. destruct (parallel c).
    - destruct (pool_map (processes c) step (trials c) (random o, inner o)) as [ts1 x1] eqn:Ep.
      injection HR as <- -> <-.
      destruct (pool_map_nth _ _ _ _ _ _ _ Ep Hi) as (m & ps & st' & F1 & F2).
      destruct (run_trials_nth _ _ _ _ _ _ _ _ _ _ _ _ _ _ F1 F2) as (noise & N1 & N2). eauto.
    - destruct (run_trials_nth _ _ _ _ _ _ _ _ _ _ _ _ _ _ HR Hi) as (noise & N1 & N2). eauto. }
  assert (HP : forall ts e st, R = (ts, Some e, st) -> parallel c = true -> True) by auto.
  destruct R as [[ts [e1|]] st]; cbn [all_imfs random inner E_IMF e_residue].
  { intros X. injection X as _ <-. unfold eemd_imfs_and_residue. cbn [E_IMF e_residue all_imfs]. split; auto. intros ->. auto. }
  specialize (HR ts st eq_refl). intros X. exfalso. revert X.
  destruct (tab_of_trials (length S) (separate_trends c) ts) as (C & HC & HS).
  { intros t Ht. apply HR in Ht as (i & g & noise & N1 & N2). eapply trial_shape; eauto. }
  rewrite HC. destruct (tab_means C (length S) HS mean_rows) as [M1 M2].
  { intros l N1 N2. apply (mean_rows_spec _ _ N1 N2). }
  destruct (mapM _ _) as [dd|e1] eqn:Em.
  2:{ apply mapM_raise in Em as (p & Hin & Ep). apply (in_map snd) in Hin. rewrite tab_vals in Hin.
      apply HS in Hin as [_ Hin]. rewrite (shaped_np_array _ _ Hin) in Ep. discriminate. }
  unfold ensemble_mean. rewrite M1. unfold minus_rows.
  destruct (map mean_rows C) as [|x l] eqn:EC; [discriminate|].
  assert (Hx : length x = length S) by (inversion M2; auto). rewrite Hx.
  rewrite broadcast2_eq by (rewrite shaped_sum_length; auto). discriminate.
Qed.

Theorem eemd_members c o S T k E o' : separate_trends c = false ->
  eemd gen dec c o S T k = (Ok E, o') ->
  exists T' w noises rs, spread S w /\
    match T with Some t => T' = t | None => timeline (length S) = Ok T' end /\
    length noises = Z.to_nat (trials c) /\ length rs = Z.to_nat (trials c) /\
    noise_of gen c o o' S w noises /\
    (forall i r, nth_error rs i = Some r -> exists X d d', noisy S (nth i noises []) X /\ run dec d X T' k = (Ok r, d')) /\
    all_imfs o' = numbered (by_order rs).
Proof.
  intros Hsep He. destruct (eemd_ensemble gen dec Hsz _ _ _ _ _ _ _ He) as
    (T' & w & noises & ts & Hw & HT & HLn & H1 & HN & H5 & H6 & H7).
  rewrite Hsep in H5.
  assert (Hnone : forall t, In t ts -> snd t = None).
  { intros t Ht. apply In_nth_error in Ht as (i & Hi). apply H5 in Hi as (X & d & d' & imfs & _ & _ & ->). reflexivity. }
  rewrite rename_plain in H6 by auto.
  exists T', w, noises, (map fst ts). rewrite map_length. repeat (split; [assumption|]). split.
  { intros i r' Hi. rewrite nth_error_map in Hi. destruct (nth_error ts i) as [t|] eqn:Et; [|discriminate].
    injection Hi as <-. apply H5 in Et as (X & d & d' & imfs & NX & R & ->). cbn [fst]. eauto. }
  rewrite by_order_cols. exact H6.
Qed.

Theorem eemd_members_trends c o S T k E o' : separate_trends c = true -> 0 < trials c ->
  eemd gen dec c o S T k = (Ok E, o') ->
  exists T' w noises rs, spread S w /\
    match T with Some t => T' = t | None => timeline (length S) = Ok T' end /\
    length noises = Z.to_nat (trials c) /\ length rs = Z.to_nat (trials c) /\
    noise_of gen c o o' S w noises /\
    (forall i x, nth_error rs i = Some x -> exists X d d' all,
       noisy S (nth i noises []) X /\ run dec d X T' k = (Ok all, d') /\ trend_of dec d' = Ok x) /\
    all_imfs o' = numbered (by_order (map fst rs) ++ [map snd rs]).
Proof.
  intros Hsep Htr He. destruct (eemd_ensemble gen dec Hsz _ _ _ _ _ _ _ He) as
    (T' & w & noises & ts & Hw & HT & HLn & H1 & HN & H5 & H6 & H7).
  rewrite Hsep in H5.
  assert (Hs : exists rs, ts = map (fun x => (fst x, Some (snd x))) rs).
  { assert (Hs : forall t, In t ts -> exists v, snd t = Some v).
    { intros t Ht. apply In_nth_error in Ht as (i & Hi).
      apply H5 in Hi as (X & d & d' & imfs & _ & _ & (ii & tr & _ & ->)). cbn. eauto. }
    clear - Hs. induction ts as [|[t1 t2] ts IH]; [exists []; reflexivity|].
    destruct IH as (rs & Et); [intros; apply Hs; right; auto|].
    destruct (Hs (t1, t2) (or_introl eq_refl)) as (v & Ev). cbn in Ev. exists ((t1, v) :: rs). cbn [map fst snd].
    rewrite Ev, Et. reflexivity. }
  destruct Hs as (rs & Ers). exists T', w, noises, rs.
  assert (HL : length rs = length ts) by (rewrite Ers, map_length; auto).
  repeat (split; [first [assumption|lia]|]). split.
  { intros i x Hi. assert (Hi' : nth_error ts i = Some (fst x, Some (snd x))) by (rewrite Ers, nth_error_map, Hi; auto).
    apply H5 in Hi' as (X & d & d' & imfs & NX & R & (ii & v & Et & Ex)).
    exists X, d, d', imfs. split; auto. split; auto. rewrite Et. injection Ex as <- <-. destruct x; reflexivity. }
  rewrite (rename_trends ts (map snd rs)) in H6.
  - rewrite by_order_cols, H6. unfold numbered, tab. replace (map fst ts) with (map fst rs); auto.
    rewrite Ers, map_map. reflexivity.
  - intros ->. cbn in H1. lia.
  - rewrite Ers, !map_map. reflexivity.
Qed.

Theorem eemd_statistics sqrt c o S T k E o' : eemd gen dec c o S T k = (Ok E, o') ->
  map fst (all_imfs o') = zseq 0 (length E) /\
  ensemble_mean (all_imfs o') = Ok E /\
  length (ensemble_count (all_imfs o')) = length E /\
  exists sd, ensemble_std sqrt (all_imfs o') = Ok sd /\ length sd = length E /\
  forall j rows, nth_error (map snd (all_imfs o')) j = Some rows ->
    rows <> [] /\ shaped (length S) rows /\
    nth j (ensemble_count (all_imfs o')) 0 = Z.of_nat (length rows) /\
    is_mean (length S) rows (nth j E []) /\
    is_std sqrt (length S) rows (nth j sd []).
Proof.
  intros He. destruct (eemd_tab _ _ _ _ _ _ _ He) as (C & HC & HE & HS).
  rewrite HC, tab_keys, HE, map_length. split; auto.
  pose proof (tab_means C (length S) HS) as HL.
  split; [apply HL; intros l H1 H2; apply (mean_rows_spec _ _ H1 H2)|].
  split; [rewrite count_tab, map_length; auto|].
  exists (map (std_rows sqrt) C). rewrite map_length. split; [|split; auto].
  { apply HL. intros l H1 H2. destruct (is_std_rows sqrt _ _ H1 H2) as (m & _ & X & _). exact X. }
  intros j rows Hj. rewrite tab_vals in Hj. pose proof (nth_error_In _ _ Hj) as HI. apply HS in HI as [N1 N2].
  split; auto. split; auto. rewrite count_tab.
  split; [apply nth_error_nth; rewrite nth_error_map, Hj; reflexivity|].
  assert (Ej : forall f : list (list Qc) -> list Qc, nth j (map f C) [] = f rows).
  { intros f. apply nth_error_nth. rewrite nth_error_map, Hj. reflexivity. }
  rewrite !Ej. split; [apply mean_rows_spec; auto|apply is_std_rows; auto].
Qed.
End Stats.

(** Zero deviation means agreement. *)
Lemma sum_squares_zero {X} (f : X -> Qc) l : (0 <= fold_right Qcplus 0 (map (fun x => f x * f x) l))%Qc /\
  (fold_right Qcplus 0 (map (fun x => f x * f x) l) = 0 <-> forall x, In x l -> f x = 0)%Qc.
Proof.
  induction l as [|x l [IH1 IH2]]; cbn [map fold_right].
  - split; [apply Qcle_refl|]. split; auto. intros _ x [].
  - assert (Hsq : (0 <= f x * f x)%Qc) by qcnra. split; [qclra|]. split.
    + intros E. assert (E1 : (f x * f x = 0)%Qc) by qclra. assert (E2 : (fold_right Qcplus 0 (map (fun x => f x * f x) l) = 0)%Qc) by qclra.
      intros y [<-|Hy]; [|apply IH2; auto]. apply Qcmult_integral in E1. tauto.
    + intros Hz. rewrite (Hz x (or_introl eq_refl)). rewrite (proj2 IH2) by (intros; apply Hz; right; auto). ring.
Qed.

Lemma total_const (rows : list (list Qc)) i x : (forall r, In r rows -> nth i r 0%Qc = x) ->
  total_at rows i = (x * Q2Qc (inject_Z (Z.of_nat (length rows))))%Qc.
Proof.
  intros Hall. unfold total_at. rewrite map_ext_in with (g := fun _ => x) by auto. clear.
  induction rows as [|y l IH]; cbn [map fold_right length].
  - symmetry. apply (Qcmult_0_r x).
  - rewrite IH. assert (E : Q2Qc (inject_Z (Z.of_nat (S (length l)))) = (1 + Q2Qc (inject_Z (Z.of_nat (length l))))%Qc).
    { apply Qc_is_canon. cbn [this Q2Qc Qcplus]. rewrite !Qred_correct. rewrite Nat2Z.inj_succ. unfold Z.succ.
      rewrite inject_Z_plus. ring. }
    rewrite E. ring.
Qed.

Theorem std_zero sqrt n rows v i : root_like sqrt -> is_std sqrt n rows v -> (i < n)%nat ->
  nth i v 0%Qc = 0%Qc <-> (forall r r', In r rows -> In r' rows -> nth i r 0%Qc = nth i r' 0%Qc).
Proof.
  intros HR (m & (Hne & Lm & Hm) & Lv & Hv) Hi. destruct (Hv i Hi) as (q & Hq & ->).
  specialize (Hm i Hi). set (N := Q2Qc (inject_Z (Z.of_nat (length rows)))) in *.
  assert (HN : (0 < N)%Qc).
  { unfold N. destruct rows as [|x l]; [congruence|]. change (Q2Qc 0 < Q2Qc (inject_Z (Z.of_nat (length (x :: l)))))%Qc.
    unfold Qclt. cbn [this Q2Qc]. rewrite !Qred_correct.
    change (inject_Z 0 < inject_Z (Z.of_nat (length (x :: l))))%Q. rewrite <- Zlt_Qlt. cbn [length]. lia. }
  destruct (sum_squares_zero (fun r => nth i r 0 - nth i m 0)%Qc rows) as [S1 S2].
  rewrite <- Hq in S1, S2.
  assert (HN0 : N <> 0%Qc) by (intros E; rewrite E in HN; discriminate).
  assert (Q0 : (0 <= q)%Qc).
  { destruct (Qclt_le_dec q 0) as [L|L]; auto. assert (q * N < 0)%Qc by qcnra. qclra. }
  rewrite (HR q Q0). split.
  - intros ->. assert (Z0 : (0 * N = 0)%Qc) by ring. intros r r' Hr Hr'.
    pose proof (proj1 S2 Z0 r Hr). pose proof (proj1 S2 Z0 r' Hr'). qclra.
  - intros Heq. assert (Hr0 : exists r0, In r0 rows) by (destruct rows as [|r0 l]; [congruence|exists r0; left; auto]).
    destruct Hr0 as (r0 & Hr0).
    assert (Hall : forall r, In r rows -> nth i r 0%Qc = nth i r0 0%Qc) by (intros; apply Heq; auto).
    pose proof (total_const _ _ _ Hall) as Et. fold N in Et.
    rewrite Et in Hm.
    assert (Em : nth i m 0%Qc = nth i r0 0%Qc).
    { destruct (Qcmult_integral (nth i m 0 - nth i r0 0) N)%Qc as [E|E]; [|qclra|congruence].
      transitivity (nth i m 0 * N - nth i r0 0 * N)%Qc; [ring|]. rewrite Hm. ring. }
    assert (EQ : (q * N = 0)%Qc). { apply S2. intros r Hr. rewrite (Hall r Hr), Em. ring. }
    apply Qcmult_integral in EQ. tauto.
Qed.

(** Without noise there is no deviation. *)
Lemma quiet_stream {G} (gen : generator Qc G) kind n vs : quiet gen -> forall g last,
  noise_stream gen kind 0%Qc n g vs last -> forall v, In v vs -> v = repeat 0%Qc n.
Proof.
  intros HQ. induction vs as [|v vs IH]; intros g last Hs v' Hv; [destruct Hv|].
  cbn [noise_stream] in Hs. destruct Hs as (g' & Hd & Hs). destruct Hv as [<-|Hv]; [|eapply IH; eauto].
  destruct (HQ g n) as [Q1 Q2]. destruct kind; cbn [draws] in Hd.
  - rewrite Hd in Q1. exact Q1.
  - destruct Hd as (lo & hi & Hlo & Hhi & Hd). assert (lo = 0%Qc) by qclra. assert (hi = 0%Qc) by qclra. subst.
    rewrite Hd in Q2. exact Q2.
  - destruct Hd.
Qed.

Theorem eemd_quiet_std {G} (gen : generator Qc G) spl fuel cfg sqrt c o S T k E o' sd :
  sized gen -> quiet gen -> root_like sqrt -> separate_trends c = false ->
  (noise_width c = 0%Qc \/ forall x y, In x S -> In y S -> x = y) ->
  eemd gen (emd_decomposer spl fuel cfg) c o S T k = (Ok E, o') ->
  ensemble_std sqrt (all_imfs o') = Ok sd ->
  length sd = length E /\ forall v, In v sd -> v = repeat 0%Qc (length S).
Proof.
  intros Hz HQ HR Hsep Hw He Esd. pose proof (emd_shapely spl fuel cfg) as Hsh.
  destruct (eemd_statistics gen _ Hz Hsh sqrt _ _ _ _ _ _ _ He) as (_ & _ & _ & sd' & Esd' & Lsd & Hsd).
  rewrite Esd in Esd'. apply (f_equal (fun x => match x with Ok y => y | _ => [] end)) in Esd'. cbn in Esd'. subst sd'.
  split; auto.
  destruct (eemd_members gen _ Hz _ _ _ _ _ _ _ Hsep He) as (T' & w & noises & rs & Hsp & HT & Ln & Lr & HN & Hrs & HD).
  assert (H0 : (noise_width c * w = 0)%Qc).
  { destruct Hw as [->|Hw]; [ring|]. destruct Hsp as (hi & lo & I1 & I2 & _ & ->). rewrite (Hw hi lo I1 I2). ring. }
  unfold noise_of in HN. rewrite H0 in HN.
  assert (Hzero : forall i, nth i noises [] = [] \/ nth i noises [] = repeat 0%Qc (length S)).
  { intros i. destruct (Nat.ltb_spec i (length noises)) as [L|L]; [|left; apply nth_overflow; auto].
    destruct (parallel c).
    - destruct HN as (_ & base & last & Hb & Lb & Hi). rewrite Hi by auto.
      destruct (nth_in_or_default (i mod Z.to_nat (chunksize (trials c) (processes c))) base []) as [I|I]; auto.
      right. eapply quiet_stream; eauto.
    - right. eapply (quiet_stream gen); eauto. apply nth_In. auto. }
  assert (Hsame : forall r r', In r rs -> In r' rs -> r = r').
  { assert (Hone : forall r, In r rs -> exists oo, emd spl fuel cfg S (Some T') k = Ok oo /\ r = out oo).
    { intros r Hr. apply In_nth_error in Hr as (i & Hi). apply Hrs in Hi as (X & d & d' & (N1 & N2 & N3) & Hrun).
      assert (EX : X = S).
      { apply nth_ext with (d := 0%Qc) (d' := 0%Qc); auto. intros j Hj. rewrite N3.
        destruct (Hzero i) as [Z0|Z0]; rewrite Z0 in *.
        - cbn [length] in N1. lia.
        - rewrite nth_repeat. ring. }
      subst X. apply emd_decomposer_run in Hrun. exact Hrun. }
    intros r r' Hr Hr'. apply Hone in Hr as (x & E1 & ->). apply Hone in Hr' as (y & E2 & ->). congruence. }
  intros v Hv. apply In_nth with (d := []) in Hv as (j & Hj & <-).
  assert (Ej : exists rows, nth_error (map snd (all_imfs o')) j = Some rows).
  { destruct (nth_error (map snd (all_imfs o')) j) eqn:En; eauto. apply nth_error_None in En.
    unfold ensemble_std, np_array in Esd. rewrite map_length in En.
    assert (L : length sd = length (all_imfs o')).
    { rewrite <- (map_length (fun p => std_rows sqrt (snd p))). destruct (map _ _) as [|x l]; [congruence|].
      destruct (forallb _ l); congruence. }
    lia. }
  destruct Ej as (rows & Ej). destruct (Hsd j rows Ej) as (Hne & Hshape & _ & _ & Hstd).
  pose proof Hstd as (m & _ & Lv & _).
  apply nth_ext with (d := 0%Qc) (d' := 0%Qc); [rewrite repeat_length; auto|].
  intros i Hi. rewrite Lv in Hi. rewrite nth_repeat. apply (std_zero sqrt (length S) rows); auto.
  assert (Hcol : rows = column j rs).
  { rewrite HD in Ej. unfold numbered in Ej. change (combine (zseq 0 (length (by_order rs))) (by_order rs)) with (tab 0 (by_order rs)) in Ej.
    rewrite tab_vals, by_order_cols in Ej. apply nth_error_nth with (d := []) in Ej. rewrite cols_nth in Ej. auto. }
  subst rows. intros a b Ha Hb. unfold column in Ha, Hb. apply in_flat_map in Ha as (r & Ir & Ha). apply in_flat_map in Hb as (r' & Ir' & Hb).
  rewrite (Hsame r r' Ir Ir') in Ha. destruct (nth_error r' j); [|destruct Ha]. destruct Ha as [<-|[]]. destruct Hb as [<-|[]]. reflexivity.
Qed.

Lemma other_noise {G D} (gen : generator Qc G) (dec : decomposer Qc D) c o S k :
  noise_kind c = OtherNoise -> parallel c = false -> 0 < trials c -> S <> [] ->
  exists o2, eemd gen dec c o S None k = (Raise ValueError, o2) /\ all_imfs o2 = [].
Proof.
  intros HK Hp Ht HS. unfold eemd.
  destruct (np_max_ok S HS) as (mx & ->). destruct (np_min_ok S HS) as (mn & ->).
  unfold timeline. destruct S as [|x S]; [congruence|]. cbn [length bind]. rewrite Hp.
  destruct (Z.to_nat (trials c)) as [|n] eqn:En; [lia|]. cbn [run_trials].
  unfold trial_update at 1. unfold generate_noise. rewrite HK. cbn [fst snd all_imfs].
  eexists. split; reflexivity.
Qed.
