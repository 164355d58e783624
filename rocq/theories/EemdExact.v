(** * EemdExact: ensemble means and reconstruction in exact arithmetic. *)
From Verif Require Import PyFacts QcFacts Eemd Spec EemdSpec EmdProofs EmdExact EemdProofs.
From Coq Require Import ZifyBool ZifyNat QArith Qcanon.
Open Scope Z_scope.

Lemma ofZ_len_ne {X} (l : list X) : l <> [] -> Qc_ofZ (zlen l) <> 0%Qc.
Proof.
  intros Hl. change 0%Qc with (Qc_ofZ 0). rewrite Qc_ofZ_inj. unfold zlen.
  destruct l; [congruence|simpl; lia].
Qed.

Lemma shaped_sum_length n (l : list (list Qc)) : shaped n l -> length (sum_rows n l) = n.
Proof. intros Hs. apply sum_rows_length. unfold shaped in Hs. rewrite Forall_forall in Hs. auto. Qed.

Lemma mean_rows_spec n (l : list (list Qc)) : l <> [] -> shaped n l -> is_mean n l (mean_rows l).
Proof.
  intros Hl Hs. split; [auto|]. destruct l as [|x l]; [congruence|].
  assert (Hx : length x = n) by (inversion Hs; auto).
  assert (HL : length (sum_rows n (x :: l)) = n) by (apply shaped_sum_length; auto).
  unfold mean_rows. rewrite Hx. split; [rewrite map_length; auto|].
  intros i Hi. rewrite <- (nth_sum_rows n (x :: l) i) by auto.
  set (f := fun s : Qc => ndiv s (nofZ (zlen (x :: l)))).
  rewrite nth_indep with (d' := f 0%Qc) by (rewrite map_length; lia).
  rewrite map_nth. unfold f. generalize (nth i (sum_rows n (x :: l)) 0%Qc). intros q.
  change (q / Qc_ofZ (zlen (x :: l)) * Qc_ofZ (zlen (x :: l)) = q)%Qc.
  field. apply ofZ_len_ne. discriminate.
Qed.
Lemma is_mean_unique n l v w : is_mean n l v -> is_mean n l w -> v = w.
Proof.
  intros (Hl & L1 & M1) (_ & L2 & M2). apply nth_ext with (d := 0%Qc) (d' := 0%Qc); [congruence|].
  intros i Hi. rewrite L1 in Hi. specialize (M1 i Hi). specialize (M2 i Hi). rewrite <- M2 in M1.
  assert (Hz : Qc_ofZ (zlen l) <> 0%Qc) by (apply ofZ_len_ne; auto).
  transitivity (nth i v 0 * Qc_ofZ (zlen l) / Qc_ofZ (zlen l))%Qc; [field; auto|].
  unfold zlen at 1, Qc_ofZ at 1. rewrite M1. fold (Qc_ofZ (Z.of_nat (length l))). fold (zlen l). field. auto.
Qed.

(** [map nth] *)
Lemma map_seq_nth {X Y} (f : X -> Y) l d : map f l = map (fun k => f (nth k l d)) (seq 0 (length l)).
Proof.
  induction l as [|x l IH]; [reflexivity|]. cbn [map length seq]. f_equal. rewrite IH, <- seq_shift, map_map.
  reflexivity.
Qed.

Section Exact.
Context {G D : Type}.
Variable gen : generator Qc G.
Variable dec : decomposer Qc D.
Notation vec := (list Qc).
Notation rows := (list (list Qc)).

Hypothesis Hsz : sized gen.
Hypothesis Hsh : shapely dec.

Lemma generate_length c g scale n noise : fst (generate_noise gen c g scale n) = Ok noise -> length noise = n.
Proof.
  unfold generate_noise. destruct (noise_kind c).
  - destruct (Hsz g scale n) as [E _]. destruct (normal gen g scale n). cbn in *. congruence.
  - destruct (Hsz g scale n) as [_ E]. specialize (E (ndiv (nopp scale) n2) (ndiv scale n2)).
    destruct (uniform gen g _ _ n). cbn in *. congruence.
  - discriminate.
Qed.
(** ** The noise of the trials *)
Lemma generate_draws c g scale n v g' : generate_noise gen c g scale n = (Ok v, g') ->
  draws gen (noise_kind c) scale n g v g'.
Proof.
  unfold generate_noise, draws. destruct (noise_kind c).
  - destruct (normal gen g scale n). congruence.
  - intros E. exists (ndiv (nopp scale) n2), (ndiv scale n2).
    destruct (uniform gen g _ _ n). injection E as -> ->.
    assert (H2 : (1 + 1)%Qc <> 0%Qc) by discriminate.
    change (@n2 Qc _) with (1 + 1)%Qc.
    split; [change (- scale / (1 + 1) + - scale / (1 + 1) = - scale)%Qc; field; auto|].
    split; [change (scale / (1 + 1) + scale / (1 + 1) = scale)%Qc; field; auto|]. reflexivity.
  - discriminate.
Qed.
Definition drawn c scale n i g : vec :=
  match draw gen c scale n i g with Ok v => v | Raise _ => [] end.
Lemma stream_of_draws c scale n m g :
  (forall i, (i < m)%nat -> exists v, draw gen c scale n i g = Ok v) ->
  noise_stream gen (noise_kind c) scale n g (map (fun i => drawn c scale n i g) (seq 0 m)) (gstate gen c scale n m g).
Proof.
  revert g. induction m as [|m IH]; intros g Hd; [reflexivity|].
  cbn [seq map noise_stream gstate]. destruct (Hd O ltac:(lia)) as (v & Hv).
  exists (snd (generate_noise gen c g scale n)). split.
  - apply generate_draws. unfold drawn. rewrite Hv. unfold draw in Hv. cbn [gstate] in Hv.
    rewrite (surjective_pairing (generate_noise gen c g scale n)) at 1. rewrite Hv. reflexivity.
  - rewrite <- seq_shift, map_map.
    rewrite map_ext with (g := fun i => drawn c scale n i (snd (generate_noise gen c g scale n))) by reflexivity.
    apply IH. intros i Hi. apply (Hd (Datatypes.S i)). lia.
Qed.

Theorem eemd_ensemble c o S T k E o' : eemd gen dec c o S T k = (Ok E, o') ->
  exists T' w noises ts, spread S w /\
    match T with Some t => T' = t | None => timeline (length S) = Ok T' end /\
    length noises = Z.to_nat (trials c) /\ length ts = Z.to_nat (trials c) /\
    (if parallel c
     then parallel_noise gen (noise_kind c) (noise_width c * w)%Qc (length S)
            (Z.to_nat (chunksize (trials c) (processes c))) (random o) (random o') noises
     else serial_noise gen (noise_kind c) (noise_width c * w)%Qc (length S) (random o) (random o') noises) /\
    (forall i t, nth_error ts i = Some t -> exists X d d' imfs,
       noisy S (nth i noises []) X /\ run dec d X T' k = (Ok imfs, d') /\
       if separate_trends c then exists i tr, trend_of dec d' = Ok (i, tr) /\ t = (i, Some tr) else t = (imfs, None)) /\
    all_imfs o' = rename_trend (collect ts) /\
    E = map (fun p => mean_rows (snd p)) (all_imfs o').
Proof.
  intros He. destruct (eemd_ok _ _ _ _ _ _ _ _ _ He) as
    (T' & mx & mn & ts & r & H1 & H2 & H3 & H4 & H5 & H6 & H7 & _ & _ & _ & _ & HR).
  apply np_max_spec in H3 as [X1 X2]. apply np_min_spec in H4 as [M1 M2].
  assert (Hw : nmul (noise_width c) (nabs (nsub mx mn)) = (noise_width c * (mx - mn))%Qc).
  { change (noise_width c * Qc_abs (mx - mn) = noise_width c * (mx - mn))%Qc. f_equal.
    specialize (M2 mx X1). destruct (Qc_abs_spec (mx - mn)) as [A1 [A2|A2]]; auto.
    assert ((mx - mn = 0)%Qc) by (rewrite A2 in A1; qclra). rewrite A2, H. reflexivity. }
  rewrite Hw in H5, HR. set (scale := (noise_width c * (mx - mn))%Qc) in *.
  set (noises := map (fun i => drawn c scale (length S) (draw_index c i) (random o)) (seq 0 (Z.to_nat (trials c)))).
  assert (HLn : length noises = Z.to_nat (trials c)) by (unfold noises; rewrite map_length, seq_length; auto).
  assert (Hnth : forall i, (i < Z.to_nat (trials c))%nat ->
     nth i noises [] = drawn c scale (length S) (draw_index c i) (random o)).
  { intros i Hi. unfold noises.
    rewrite nth_indep with (d' := drawn c scale (length S) (draw_index c O) (random o)) by (rewrite map_length, seq_length; auto).
    rewrite (map_nth (fun i => drawn c scale (length S) (draw_index c i) (random o))), seq_nth by auto. reflexivity. }
  assert (Hdraw : forall i, (i < Z.to_nat (trials c))%nat ->
     exists v, draw gen c scale (length S) (draw_index c i) (random o) = Ok v).
  { intros i Hi. destruct (nth_error ts i) as [t|] eqn:Et; [|apply nth_error_None in Et; lia].
    apply H5 in Et as (v & Hv & _). eauto. }
  exists T', (mx - mn)%Qc, noises, ts. split.
  { exists mx, mn. repeat (split; [assumption|]). split; [|reflexivity]. intros x Hx. split; auto. }
  split; auto. split; auto. split; auto. split.
  { unfold draw_index in *. destruct (parallel c).
    - destruct HR as [HR Hp]. split; auto.
      set (chunk := Z.to_nat (chunksize (trials c) (processes c))) in *.
      exists (map (fun i => drawn c scale (length S) i (random o)) (seq 0 (Nat.min chunk (Z.to_nat (trials c))))).
      eexists. split.
      + apply stream_of_draws. intros i Hi. specialize (Hdraw i ltac:(lia)).
        rewrite Z.mod_small in Hdraw by lia. rewrite Nat2Z.id in Hdraw. auto.
      + split; [rewrite map_length, seq_length, HLn; auto|].
        intros i Hi. rewrite HLn in Hi. rewrite (Hnth i Hi).
        assert (Hc : 0 < chunksize (trials c) (processes c)) by (apply chunksize_pos; lia).
        assert (Hm : Z.to_nat (Z.of_nat i mod chunksize (trials c) (processes c)) = (i mod chunk)%nat).
        { unfold chunk. rewrite Z2Nat.inj_mod by lia. rewrite Nat2Z.id. reflexivity. }
        rewrite Hm. assert (i mod chunk < chunk)%nat by (apply Nat.mod_upper_bound; lia).
        assert (i mod chunk <= i)%nat by (apply Nat.mod_le; lia).
        rewrite nth_indep with (d' := drawn c scale (length S) O (random o)) by (rewrite map_length, seq_length; lia).
        rewrite (map_nth (fun i => drawn c scale (length S) i (random o))), seq_nth by lia. reflexivity.
    - unfold serial_noise. rewrite HR. apply stream_of_draws. auto. }
  split; [|auto].
  intros i t Hi. assert (Hlt : (i < length ts)%nat) by (apply nth_error_Some; congruence). rewrite H1 in Hlt.
  apply H5 in Hi as (v & Hv & (d & d' & imfs & R & X)). rewrite (Hnth i Hlt). unfold drawn. rewrite Hv.
  assert (Hlen : length v = length S) by (eapply generate_length; exact Hv).
  exists (vadd S v), d, d', imfs. split; [|auto].
  split; auto. split; [rewrite vadd_length; auto|]. intros j. apply nth_vadd. auto.
Qed.

(** The means of the columns. *)
Lemma means_of_cols n (rs : list rows) : Forall (shaped n) rs ->
  let E := map mean_rows (cols rs) in
  length E = fold_right Nat.max O (map (@length _) rs) /\
  forall k, (k < length E)%nat -> is_mean n (column k rs) (nth k E []).
Proof.
  intros Hs E. assert (HL : length E = fold_right Nat.max O (map (@length _) rs))
    by (unfold E; rewrite map_length; apply cols_length).
  split; auto. intros k Hk. unfold E. change (@nil Qc) with (@mean_rows Qc _ []). rewrite map_nth, cols_nth.
  apply mean_rows_spec.
  - apply column_nonempty. lia.
  - apply Forall_forall. intros x Hx. apply In_column in Hx as (r & Hr & Hx).
    rewrite Forall_forall in Hs. specialize (Hs r Hr). unfold shaped in Hs. rewrite Forall_forall in Hs. auto.
Qed.

Lemma map_mean_tab C : map (fun p => mean_rows (snd p)) (tab 0 C) = map (@mean_rows Qc _) C.
Proof. rewrite <- map_map with (f := snd), tab_vals. reflexivity. Qed.
Lemma count_tab (C : list rows) : ensemble_count (tab 0 C) = map (@zlen _) C.
Proof. unfold ensemble_count. rewrite <- map_map with (f := snd), tab_vals. reflexivity. Qed.

Lemma count_noninc (rs : list rows) k :
  (length (column (Datatypes.S k) rs) <= length (column k rs))%nat.
Proof.
  rewrite !column_count. induction rs as [|r rs IH]; [auto|]. cbn [filter].
  destruct (Nat.ltb_spec (Datatypes.S k) (length r)), (Nat.ltb_spec k (length r)); cbn [length]; lia.
Qed.

(** C28: no separate trends. *)
Theorem eemd_means c o S T k E o' : separate_trends c = false ->
  eemd gen dec c o S T k = (Ok E, o') ->
  exists T' w noises rs, spread S w /\
    match T with Some t => T' = t | None => timeline (length S) = Ok T' end /\
    length noises = Z.to_nat (trials c) /\ length rs = Z.to_nat (trials c) /\
    noise_of gen c o o' S w noises /\
    (forall i r, nth_error rs i = Some r -> exists X d d', noisy S (nth i noises []) X /\ run dec d X T' k = (Ok r, d')) /\
    length E = fold_right Nat.max O (map (@length _) rs) /\
    length (ensemble_count (all_imfs o')) = length E /\
    (forall j, (j < length E)%nat ->
       is_mean (length S) (column j rs) (nth j E []) /\
       nth j (ensemble_count (all_imfs o')) 0 = zlen (filter (fun r => Nat.ltb j (length r)) rs) /\
       0 < nth j (ensemble_count (all_imfs o')) 0) /\
    (forall j, (Datatypes.S j < length E)%nat ->
       nth (Datatypes.S j) (ensemble_count (all_imfs o')) 0 <= nth j (ensemble_count (all_imfs o')) 0).
Proof.
  intros Hsep He. destruct (eemd_ensemble _ _ _ _ _ _ _ He) as
    (T' & w & noises & ts & Hw & HT & HLn & H1 & HN & H5 & H6 & H7).
  rewrite Hsep in H5.
  assert (Hnone : forall t, In t ts -> snd t = None).
  { intros t Ht. apply In_nth_error in Ht as (i & Hi). apply H5 in Hi as (X & d & d' & imfs & _ & _ & ->). reflexivity. }
  rewrite rename_plain in H6 by auto. rewrite H6, map_mean_tab in H7.
  exists T', w, noises, (map fst ts). rewrite map_length. repeat (split; [assumption|]). split.
  { intros i r' Hi. rewrite nth_error_map in Hi. destruct (nth_error ts i) as [t|] eqn:Et; [|discriminate].
    injection Hi as <-. apply H5 in Et as (X & d & d' & imfs & NX & R & ->). cbn [fst]. eauto. }
  assert (Hshape : Forall (shaped (length S)) (map fst ts)).
  { apply Forall_forall. intros x Hx. apply in_map_iff in Hx as (t & <- & Ht).
    apply In_nth_error in Ht as (i & Hi). apply H5 in Hi as (X & d & d' & imfs & (_ & LX & _) & R & ->).
    apply Hsh in R as [R _]. rewrite LX in R. exact R. }
  destruct (means_of_cols (length S) (map fst ts) Hshape) as [M1 M2]. rewrite <- H7 in M1, M2.
  split; auto. rewrite H6, count_tab.
  assert (HC : length (map (@zlen _) (cols (map fst ts))) = length E) by (rewrite H7, !map_length; auto).
  split; auto.
  assert (Hcount : forall j, nth j (map (@zlen _) (cols (map fst ts))) 0 = zlen (column j (map fst ts))).
  { intros j. change 0 with (zlen (@nil vec)). rewrite map_nth, cols_nth. reflexivity. }
  split.
  - intros j Hj. specialize (M2 j Hj). split; auto. rewrite Hcount. split.
    + unfold zlen. rewrite column_count. reflexivity.
    + destruct M2 as (Hne & _). destruct (column j (map fst ts)); [congruence|]. rewrite zlen_cons. pose proof (zlen_nonneg l0). lia.
  - intros j Hj. rewrite !Hcount. unfold zlen. pose proof (count_noninc (map fst ts) j). lia.
Qed.

(** C33 *)
Theorem eemd_trends c o S T k E o' : separate_trends c = true -> 0 < trials c ->
  eemd gen dec c o S T k = (Ok E, o') ->
  exists T' w noises rs, spread S w /\
    match T with Some t => T' = t | None => timeline (length S) = Ok T' end /\
    length noises = Z.to_nat (trials c) /\ length rs = Z.to_nat (trials c) /\
    noise_of gen c o o' S w noises /\
    (forall i x, nth_error rs i = Some x -> exists X d d' all,
       noisy S (nth i noises []) X /\ run dec d X T' k = (Ok all, d') /\ trend_of dec d' = Ok x) /\
    exists means, E = means ++ [last E []] /\
      is_mean (length S) (map snd rs) (last E []) /\
      length means = fold_right Nat.max O (map (fun x => length (fst x)) rs) /\
      (forall j, (j < length means)%nat -> is_mean (length S) (column j (map fst rs)) (nth j means [])) /\
      ensemble_count (all_imfs o') =
        map (fun j => zlen (filter (fun x => Nat.ltb j (length (fst x))) rs)) (seq 0 (length means)) ++ [trials c].
Proof.
  intros Hsep Htr He. destruct (eemd_ensemble _ _ _ _ _ _ _ He) as
    (T' & w & noises & ts & Hw & HT & HLn & H1 & HN & H5 & H6 & H7).
  rewrite Hsep in H5.
  assert (Hsome : exists tr, map snd ts = map Some tr).
  { assert (Hs : forall t, In t ts -> exists v, snd t = Some v).
    { intros t Ht. apply In_nth_error in Ht as (i & Hi).
      apply H5 in Hi as (X & d & d' & imfs & _ & _ & (ii & tr & _ & ->)). cbn. eauto. }
    clear - Hs. induction ts as [|t ts IH]; [exists []; reflexivity|].
    destruct IH as (tr & Et); [intros; apply Hs; right; auto|].
    destruct (Hs t (or_introl eq_refl)) as (v & Ev). exists (v :: tr). cbn [map]. rewrite Ev, Et. reflexivity. }
  destruct Hsome as (tr & Etr).
  assert (Hne : ts <> []) by (intros ->; cbn in H1; lia).
  assert (HLt : length tr = length ts).
  { apply (f_equal (@length _)) in Etr. rewrite !map_length in Etr. auto. }
  rewrite (rename_trends ts tr Hne Etr) in H6. rewrite H6, map_mean_tab, map_app in H7. cbn [map] in H7.
  set (rs := combine (map fst ts) tr).
  assert (R1 : map fst rs = map fst ts).
  { unfold rs. clear - HLt. revert tr HLt. induction ts as [|t ts IH]; intros [|v tr] HL; cbn in *; auto; try discriminate.
    f_equal. apply IH. lia. }
  assert (R2 : map snd rs = tr).
  { unfold rs. clear - HLt. revert tr HLt. induction ts as [|t ts IH]; intros [|v tr] HL; cbn in *; auto; try discriminate.
    f_equal. apply IH. lia. }
  assert (HLr : length rs = length ts) by (unfold rs; rewrite combine_length, map_length; lia).
  exists T', w, noises, rs. repeat (split; [first [assumption | lia]|]).
  assert (Hnth : forall i x, nth_error rs i = Some x -> nth_error ts i = Some (fst x, Some (snd x))).
  { intros i x Hi. assert (A1 : nth_error (map fst rs) i = Some (fst x)) by (rewrite nth_error_map, Hi; auto).
    assert (A2 : nth_error (map snd rs) i = Some (snd x)) by (rewrite nth_error_map, Hi; auto).
    rewrite R1, nth_error_map in A1. rewrite R2 in A2.
    assert (A3 : nth_error (map snd ts) i = Some (Some (snd x))) by (rewrite Etr, nth_error_map, A2; auto).
    rewrite nth_error_map in A3. destruct (nth_error ts i) as [[t1 t2]|]; [|discriminate]. cbn in *.
    congruence. }
  split.
  { intros i x Hi. apply Hnth in Hi. apply H5 in Hi as (X & d & d' & imfs & NX & R & (ii & v & Et & Ex)).
    exists X, d, d', imfs. split; auto. split; auto. rewrite Et.
    destruct x as [x1 x2]. cbn in Ex. injection Ex as <- <-. reflexivity. }
  assert (Hshape : Forall (shaped (length S)) (map fst ts) /\ shaped (length S) tr).
  { assert (Hall : forall t, In t ts -> shaped (length S) (fst t) /\ forall v, snd t = Some v -> length v = length S).
    { intros t Ht. apply In_nth_error in Ht as (i & Hi).
      apply H5 in Hi as (X & d & d' & imfs & (_ & LX & _) & R & (ii & v & Et & ->)).
      apply Hsh in R as [_ R]. apply R in Et. rewrite LX in Et. apply Forall_app in Et as [E1 E2]. cbn [fst snd].
      split; auto. intros v' Hv. injection Hv as <-. inversion E2; auto. }
    split; apply Forall_forall.
    - intros x Hx. apply in_map_iff in Hx as (t & <- & Ht). apply Hall; auto.
    - intros v Hv. assert (Hv' : In (Some v) (map snd ts)) by (rewrite Etr; apply in_map; auto).
      apply in_map_iff in Hv' as (t & Et & Ht). apply (Hall t Ht). auto. }
  destruct Hshape as [Hs1 Hs2].
  exists (map mean_rows (cols (map fst ts))).
  assert (HE : last E [] = mean_rows tr) by (rewrite H7; apply last_last).
  rewrite HE. split; auto. split; [rewrite R2; apply mean_rows_spec; auto; destruct tr; [destruct ts; [congruence|discriminate]|discriminate]|].
  destruct (means_of_cols (length S) (map fst ts) Hs1) as [M1 M2]. cbv zeta in M1, M2.
  split.
  { rewrite M1, <- R1, map_map. reflexivity. }
  split.
  { intros j Hj. rewrite R1. apply M2. auto. }
  rewrite H6, count_tab, map_app. cbn [map]. f_equal.
  - rewrite M1, <- cols_length, cols_map at 1. rewrite map_map. apply map_ext. intros j.
    unfold zlen. rewrite column_count, <- R1. f_equal. clear. induction rs as [|x rs IH]; [reflexivity|].
    cbn [map filter]. destruct (Nat.ltb j (length (fst x))); cbn [length]; auto.
  - f_equal. unfold zlen. lia.
Qed.

(** Shape of the result, with or without trends. *)
Lemma eemd_shape c o S T k E o' : eemd gen dec c o S T k = (Ok E, o') -> shaped (length S) E.
Proof.
  intros He. destruct (Z.ltb_spec 0 (trials c)) as [Ht|Ht].
  - destruct (separate_trends c) eqn:Es.
    + destruct (eemd_trends _ _ _ _ _ _ _ Es Ht He) as (T' & w & noises & rs & _ & _ & _ & _ & _ & _ & means & -> & (_ & L & _) & _ & M & _).
      rewrite last_last in L. apply Forall_app. split; [|constructor; auto].
      apply Forall_forall. intros x Hx. apply In_nth with (d := []) in Hx as (j & Hj & <-). apply (M j Hj).
    + destruct (eemd_means _ _ _ _ _ _ _ Es He) as (T' & w & noises & rs & _ & _ & _ & _ & _ & _ & _ & _ & M & _).
      apply Forall_forall. intros x Hx. apply In_nth with (d := []) in Hx as (j & Hj & <-). apply (M j Hj).
  - destruct (eemd_ok _ _ _ _ _ _ _ _ _ He) as
      (T' & mx & mn & ts & r & H1 & _ & _ & _ & _ & H6 & H7 & _).
    assert (ts = []) by (destruct ts; [auto|cbn in H1; lia]). subst ts. rewrite H6 in H7. cbn in H7. subst E.
    constructor.
Qed.

(** C29 *)
Theorem eemd_adds_up c o S T k E o' : eemd gen dec c o S T k = (Ok E, o') ->
  exists r, eemd_imfs_and_residue o' = Ok (E, r) /\ length r = length S /\ adds_up (E ++ [r]) S.
Proof.
  intros He. pose proof (eemd_shape _ _ _ _ _ _ _ He) as Hs.
  destruct (eemd_ok _ _ _ _ _ _ _ _ _ He) as
    (T' & mx & mn & ts & r & H1 & H2 & _ & _ & H5 & H6 & H7 & H8 & H9 & H10 & H11 & _).
  exists r. unfold eemd_imfs_and_residue. rewrite H9, H10. split; auto.
  assert (Hr : r = vsub S (sum_rows (length S) E)).
  { unfold minus_rows in H11. destruct E as [|x E].
    - injection H11 as <-. unfold sum_rows. cbn [fold_left]. rewrite vsub_zeros.
      transitivity (map (fun x => x) S); [|apply map_id]. apply map_ext. intros x. change (x - 0 = x)%Qc. ring.
    - assert (Hx : length x = length S) by (inversion Hs; auto). rewrite Hx in H11.
      rewrite broadcast2_eq in H11 by (rewrite shaped_sum_length; auto). injection H11 as <-. reflexivity. }
  split.
  - rewrite Hr, vsub_length; auto. rewrite shaped_sum_length; auto.
  - intros i Hi. rewrite total_at_app, total_at_one, Hr, Qcplus_comm. apply residue_spec. auto.
Qed.
End Exact.

Lemma emd_shapely spl fuel c : shapely (emd_decomposer spl fuel c).
Proof.
  intros d S T k imfs d'. cbn [run trend_of emd_decomposer]. unfold emd_call.
  destruct (emd spl fuel c S (Some T) k) as [o|e] eqn:E; [|discriminate].
  intros X. injection X as <- <-. destruct (emd_shape _ _ _ _ _ _ _ E) as (A1 & A2 & A3).
  split; auto. unfold get_imfs_and_trend, get_imfs_and_residue. cbn [st_imfs st_residue].
  intros i tr. cbn [bind]. destruct (allclose0 (residue o)).
  - destruct (imfs o) as [|x l] using rev_ind; [discriminate|]. rewrite py_get_last, py_slice_all_but_last.
    intros X. injection X as <- <-. auto.
  - intros X. injection X as <- <-. apply Forall_app. split; auto.
Qed.

(** ** Trials without noise *)
Section Constant.
Context {A : Type} `{Num A} {G D : Type}.
Variable step : G * D -> res (@trial A) * (G * D).
Lemma run_trials_const t n st : (forall st, fst (step st) = Ok t) ->
  exists st', run_trials step n st = (repeat t n, None, st').
Proof.
  intros Hs. revert st. induction n as [|n IH]; intros st; cbn [run_trials repeat]; [eauto|].
  specialize (Hs st) as E. destruct (step st) as [r st1]. cbn in E. subst r.
  destruct (IH st1) as (st' & ->). eauto.
Qed.
Lemma run_trials_raise e n st : (forall st, fst (step st) = Raise e) -> (0 < n)%nat ->
  exists st', run_trials step n st = ([], Some e, st').
Proof.
  intros Hs Hn. destruct n as [|n]; [lia|]. cbn [run_trials].
  specialize (Hs st) as E. destruct (step st) as [r st1]. cbn in E. subst r. eauto.
Qed.
Lemma pool_const t procs n st : (forall st, fst (step st) = Ok t) -> 1 <= procs -> 0 < n ->
  pool_map procs step n st = (repeat t (Z.to_nat n), None).
Proof.
  intros Hs Hp Hn. unfold pool_map. replace (procs <? 1) with false by lia.
  destruct (chunk_lengths_spec (Z.to_nat n) (chunksize n procs) n) as [S1 _];
    [apply chunksize_pos; lia|lia|]. rewrite <- S1 at 2. clear S1.
  generalize (chunk_lengths (Z.to_nat n) (chunksize n procs) n). intros lens.
  induction lens as [|l lens IH]; [reflexivity|]. cbn [pool_chunks fold_right].
  destruct (run_trials_const t l st Hs) as (st' & ->). rewrite IH, repeat_app. reflexivity.
Qed.
Lemma pool_raise e procs n st : (forall st, fst (step st) = Raise e) -> 1 <= procs -> 0 < n ->
  pool_map procs step n st = ([], Some e).
Proof.
  intros Hs Hp Hn. unfold pool_map. replace (procs <? 1) with false by lia.
  pose proof (chunksize_pos n procs Hp Hn).
  destruct (Z.to_nat n) as [|m] eqn:Em; [lia|]. cbn [chunk_lengths]. replace (n <=? 0) with false by lia.
  cbn [pool_chunks]. destruct (run_trials_raise e (Z.to_nat (Z.min (chunksize n procs) n)) st Hs) as (st' & ->); [lia|].
  reflexivity.
Qed.
End Constant.

Lemma column_repeat {X} j (r : list (list X)) n : (j < length r)%nat ->
  column j (repeat r n) = repeat (nth j r []) n.
Proof.
  intros Hj. induction n as [|n IH]; [reflexivity|]. cbn [repeat column flat_map].
  fold (column j (repeat r n)). rewrite IH, nth_error_nth' with (d := []) by auto. reflexivity.
Qed.
Lemma max_repeat {X} (r : list X) n : (0 < n)%nat ->
  fold_right Nat.max O (map (@length _) (repeat r n)) = length r.
Proof.
  intros Hn. destruct n as [|n]; [lia|]. clear Hn. induction n as [|n IH]; cbn in *; lia.
Qed.
Lemma total_repeat (v : list Qc) n i : total_at (repeat v n) i = (nth i v 0 * Qc_ofZ (Z.of_nat n))%Qc.
Proof.
  induction n as [|n IH]; [cbn; change (Qc_ofZ 0) with 0%Qc; change (total_at [] i) with 0%Qc; ring|].
  change (repeat v (Datatypes.S n)) with ([v] ++ repeat v n). rewrite total_at_app, total_at_one, IH.
  rewrite Nat2Z.inj_succ, <- Z.add_1_l, Qc_ofZ_add. change (Qc_ofZ 1) with 1%Qc. ring.
Qed.
Lemma mean_repeat (v : list Qc) n : (0 < n)%nat -> mean_rows (repeat v n) = v.
Proof.
  intros Hn. apply (is_mean_unique (length v) (repeat v n)).
  - apply mean_rows_spec; [destruct n; [lia|discriminate]|].
    apply Forall_forall. intros x Hx. apply repeat_spec in Hx. subst. auto.
  - split; [destruct n; [lia|discriminate]|]. split; auto. intros i Hi. rewrite total_repeat, repeat_length. reflexivity.
Qed.

(** A call all of whose trials gave the same rows returns those rows. *)
Lemma eemd_repeat {G D} (o : eemd_state Qc G D) (S : list Qc) (R : list (@trial Qc) * option exn * (G * D)) (par : bool) m (r : list (list Qc)) (st : G * D) :
  R = (repeat (r, None) m, None, st) ->
  (0 < m)%nat -> shaped (length S) r ->
  fst (let '(ts, x, st) := R in
       let o := MkESt (fst st) (snd st) (E_IMF o) (e_residue o)
         (match x with Some _ => if par then all_imfs o else collect ts
                     | None => rename_trend (collect ts) end) in
       match x with
       | Some e => (Raise e, o)
       | None =>
         match mapM (fun p => np_array (snd p)) (all_imfs o) with
         | Raise e => (Raise e, o)
         | Ok _ =>
           match ensemble_mean (all_imfs o) with
           | Raise e => (Raise e, o)
           | Ok E =>
             match minus_rows S E with
             | Raise e => (Raise e, MkESt (random o) (inner o) (Some E) (e_residue o) (all_imfs o))
             | Ok rr => (Ok E, MkESt (random o) (inner o) (Some E) (Some rr) (all_imfs o))
             end
           end
         end
       end) = Ok r.
Proof.
  intros -> Hm Hshape. cbn [all_imfs].
  set (ts := repeat (r, None) m).
  rewrite (rename_plain ts) by (intros t Hin; apply repeat_spec in Hin; subst; auto).
  assert (Hfst : map fst ts = repeat r m).
  { unfold ts. clear. induction m as [|n IH]; cbn; congruence. }
  assert (Hcols : cols (map fst ts) = map (fun x => repeat x m) r).
  { rewrite cols_map, cols_length, Hfst, max_repeat by lia.
    rewrite (map_seq_nth _ r []). apply map_ext_in. intros j Hj. apply in_seq in Hj.
    apply column_repeat. lia. }
  rewrite Hcols.
  destruct (mapM _ _) as [dd|e] eqn:Em.
  2:{ exfalso. apply mapM_raise in Em as (p & Hin & Ep). apply (in_map snd) in Hin. rewrite tab_vals in Hin.
      apply in_map_iff in Hin as (x & Hx & _). rewrite <- Hx in Ep. unfold np_array in Ep.
      destruct m as [|m]; cbn [repeat] in Ep; [discriminate|].
      destruct (forallb _ _) eqn:Ef; [discriminate|].
      apply Bool.not_true_iff_false in Ef. apply Ef. apply forallb_forall. intros y Hy. apply repeat_spec in Hy.
      subst y. apply Nat.eqb_refl. }
  assert (HE : ensemble_mean (tab 0 (map (fun x => repeat x m) r)) = Ok r).
  { unfold ensemble_mean. rewrite map_mean_tab, map_map.
    rewrite map_ext with (g := fun x => x) by (intros x; apply mean_repeat; lia). rewrite map_id.
    unfold np_array. destruct r as [|x l]; auto.
    assert (Ef : forallb (fun y => Nat.eqb (length y) (length x)) l = true).
    { apply forallb_forall. intros y Hy. inversion Hshape as [|x' l' Hx Hl]. subst. rewrite Forall_forall in Hl.
      apply Nat.eqb_eq. rewrite (Hl y Hy). auto. }
    rewrite Ef. reflexivity. }
  rewrite HE. unfold minus_rows. destruct r as [|x l] eqn:Eo; [reflexivity|].
  assert (Hx : length x = length S) by (inversion Hshape; auto). rewrite Hx.
  rewrite broadcast2_eq by (rewrite shaped_sum_length; auto). reflexivity.
Qed.

(** ** Parallel trials in chunks of one *)
Lemma chunksize_one n procs : 0 < n -> n <= 4 * procs -> chunksize n procs = 1.
Proof.
  intros Hn Hp. unfold chunksize. destruct (Z.eqb_spec (n mod (procs * 4)) 0) as [E|E].
  - apply Z.mod_divide in E as [m Em]; [|lia]. assert (m = 1) by nia. subst m.
    rewrite Em. rewrite Z.mul_1_l, Z.div_same; lia.
  - assert (n <> procs * 4) by (intros Hx; apply E; rewrite Hx; apply Z.mod_same; lia).
    rewrite Z.div_small by lia. reflexivity.
Qed.
Lemma chunk_lengths_one fuel n : (Z.to_nat n <= fuel)%nat -> chunk_lengths fuel 1 n = repeat 1%nat (Z.to_nat n).
Proof.
  revert n. induction fuel as [|fuel IH]; intros n Hn; cbn [chunk_lengths].
  - replace (Z.to_nat n) with O by lia. reflexivity.
  - destruct (Z.leb_spec n 0); [replace (Z.to_nat n) with O by lia; reflexivity|].
    replace (Z.to_nat n) with (Datatypes.S (Z.to_nat (n - 1))) by lia. cbn [repeat].
    rewrite IH by lia. f_equal. lia.
Qed.
Lemma pool_ones {A} `{Num A} {G D} (step : G * D -> res (@trial A) * (G * D)) procs n st :
  1 <= procs -> 0 < n <= 4 * procs ->
  pool_map procs step n st =
    match fst (step st) with Ok t => (repeat t (Z.to_nat n), None) | Raise e => ([], Some e) end.
Proof.
  intros Hp Hn. unfold pool_map. replace (procs <? 1) with false by lia.
  rewrite chunksize_one by lia. rewrite chunk_lengths_one by lia.
  replace (Z.to_nat n) with (Datatypes.S (Z.to_nat (n - 1))) by lia. generalize (Z.to_nat (n - 1)). intros m.
  destruct (step st) as [[t|e] st'] eqn:Es; cbn [fst].
  - assert (X : forall k, pool_chunks step st (repeat 1%nat k) = (repeat t k, None)).
    { induction k as [|k IH]; [reflexivity|]. cbn [repeat pool_chunks run_trials]. rewrite Es, IH. reflexivity. }
    apply X.
  - cbn [repeat pool_chunks run_trials]. rewrite Es. reflexivity.
Qed.

Theorem eemd_parallel_one {G D} (gen : generator Qc G) (dec : decomposer Qc D) c o S T k par :
  sized gen -> shapely dec ->
  parallel c = true -> 1 <= processes c -> 0 < trials c <= 4 * processes c -> separate_trends c = false ->
  fst (eemd gen dec c o S T k) =
  fst (eemd gen dec (MkECfg 1 (noise_width c) false (noise_kind c) par (processes c)) o S T k).
Proof.
  intros Hsz Hsh Hpar Hp Ht Hsep. unfold eemd. cbn [trials noise_width parallel processes].
  destruct (bind _ _) as [[T' scale]|e]; [|reflexivity].
  rewrite Hpar, pool_ones by auto.
  set (c1 := MkECfg 1 (noise_width c) false (noise_kind c) par (processes c)).
  assert (Hstep : trial_update gen dec c1 scale S T' k = trial_update gen dec c scale S T' k).
  { unfold trial_update. rewrite Hsep. reflexivity. }
  rewrite Hstep. set (step := trial_update gen dec c scale S T' k).
  rewrite (pool_ones step (processes c) 1) by lia.
  change (Z.to_nat 1) with 1%nat. cbn [run_trials].
  destruct (step (random o, inner o)) as [[t|e] st'] eqn:Es; cbn [fst].
  - assert (Hshape : exists r, t = (r, None) /\ shaped (length S) r).
    { apply trial_update_spec in Es as [(noise & N1 & N2) _]. destruct N2 as (d & d' & imfs & R & X).
      rewrite Hsep in X. exists imfs. split; auto. apply Hsh in R as [R _].
      apply generate_length in N1; auto. rewrite vadd_length in R by auto. exact R. }
    destruct Hshape as (r & -> & Hr).
    transitivity (@Ok (list (list Qc)) r).
    { apply (eemd_repeat o S (repeat (r, None) (Z.to_nat (trials c)), None, (random o, inner o)) true (Z.to_nat (trials c)) r (random o, inner o)); auto; lia. }
    symmetry. destruct par.
    + apply (eemd_repeat o S (repeat (r, None) 1, None, (random o, inner o)) true 1 r (random o, inner o)); auto.
    + apply (eemd_repeat o S (repeat (r, None) 1, None, st') false 1 r st'); auto.
  - destruct par; reflexivity.
Qed.

Section Quiet.
Context {G : Type}.
Variable gen : generator Qc G.

Lemma vadd_zeros (S : list Qc) : vadd S (vzeros (length S)) = S.
Proof.
  induction S as [|x S IH]; [reflexivity|].
  change (vadd (x :: S) (vzeros (length (x :: S))))
    with ((x + 0)%Qc :: vadd S (vzeros (length S))).
  rewrite IH. f_equal. ring.
Qed.
Lemma emd_timeline spl fuel c (S : list Qc) T k : timeline (length S) = Ok T ->
  emd spl fuel c S (Some T) k = emd spl fuel c S None k.
Proof.
  intros E. unfold emd, emd_time. rewrite E.
  assert (length T = length S).
  { assert (E2 : T = map nofZ (zseq 0 (length S))) by (unfold timeline in E; destruct (length S); congruence).
    rewrite E2, map_length, zseq_length. auto. }
  replace (Nat.eqb (length S) (length T)) with true by (symmetry; apply Nat.eqb_eq; auto).
  cbn [bind]. destruct (extrema_detection c); reflexivity.
Qed.

Theorem eemd_quiet spl fuel cfg c o S T k : quiet gen -> S <> [] -> noise_kind c <> OtherNoise ->
  0 < trials c -> (parallel c = true -> 1 <= processes c) -> separate_trends c = false ->
  (noise_width c = 0%Qc \/ forall x y, In x S -> In y S -> x = y) ->
  fst (eemd gen (emd_decomposer spl fuel cfg) c o S T k) =
    match emd spl fuel cfg S T k with Ok r => Ok (out r) | Raise e => Raise e end.
Proof.
  intros HQ HS HK Ht Hp Hsep Hw. unfold eemd.
  destruct (np_max_ok S HS) as (mx & Emx). destruct (np_min_ok S HS) as (mn & Emn).
  rewrite Emx, Emn. cbn [bind].
  assert (Hscale : nmul (noise_width c) (nabs (nsub mx mn)) = 0%Qc).
  { change (noise_width c * Qc_abs (mx - mn) = 0)%Qc. destruct Hw as [->|Hw]; [ring|].
    apply np_max_spec in Emx as [I1 _]. apply np_min_spec in Emn as [I2 _]. rewrite (Hw mx mn I1 I2).
    replace (mn - mn)%Qc with 0%Qc by ring. replace (Qc_abs 0) with 0%Qc by (destruct (Qc_abs_spec 0) as [_ [->| ->]]; ring). ring. }
  assert (HT : exists tm, match T with Some t => Ok t | None => timeline (length S) end = Ok tm /\
                emd spl fuel cfg S (Some tm) k = emd spl fuel cfg S T k).
  { destruct T as [t|]; [eauto|]. unfold timeline at 1. destruct S as [|x S]; [congruence|]. cbn [length].
    eexists. split; [reflexivity|]. apply emd_timeline. reflexivity. }
  destruct HT as (tm & -> & HT). cbn [bind]. rewrite Hscale.
  set (step := trial_update gen (emd_decomposer spl fuel cfg) c 0%Qc S tm k).
  assert (Hn : forall g, fst (generate_noise gen c g 0%Qc (length S)) = Ok (vzeros (length S))).
  { intros g. unfold generate_noise. destruct (HQ g (length S)) as [Q1 Q2].
    assert (Z1 : forall q, ndiv (nopp 0%Qc) q = 0%Qc) by (intros q; change (- 0 / q = 0)%Qc; unfold Qcdiv; ring).
    assert (Z2 : forall q, ndiv 0%Qc q = 0%Qc) by (intros q; change (0 / q = 0)%Qc; unfold Qcdiv; ring).
    rewrite Z1, Z2. change (repeat 0%Qc (length S)) with (@vzeros Qc _ (length S)) in Q1, Q2.
    destruct (noise_kind c); [destruct (normal gen g 0%Qc (length S)) | destruct (uniform gen g 0%Qc 0%Qc (length S)) | congruence];
      cbn in *; congruence. }
  assert (Hstep : forall st, fst (step st) =
    match emd spl fuel cfg S T k with Ok r => Ok (out r, None) | Raise e => Raise e end).
  { intros st. unfold step, trial_update. specialize (Hn (fst st)).
    destruct (generate_noise gen c (fst st) 0%Qc (length S)) as [nz g]. cbn [fst] in Hn. subst nz.
    rewrite vadd_zeros, Hsep. cbn [run emd_decomposer]. unfold emd_call. rewrite HT.
    destruct (emd spl fuel cfg S T k); reflexivity. }
  destruct (emd spl fuel cfg S T k) as [r|e] eqn:Er.
  - destruct (emd_shape _ _ _ _ _ _ _ Er) as (Hshape & _ & _).
    destruct (parallel c).
    + rewrite (pool_const step (out r, None)) by auto.
      apply (eemd_repeat o S (repeat (out r, None) (Z.to_nat (trials c)), None, (random o, inner o)) true (Z.to_nat (trials c)) (out r) (random o, inner o)); auto; lia.
    + destruct (run_trials_const step (out r, None) (Z.to_nat (trials c)) (random o, inner o) Hstep) as (st & E).
      rewrite E.
      apply (eemd_repeat o S (repeat (out r, None) (Z.to_nat (trials c)), None, st) false (Z.to_nat (trials c)) (out r) st); auto; lia.
  - destruct (parallel c).
    + rewrite (pool_raise step e) by auto. reflexivity.
    + destruct (run_trials_raise step e (Z.to_nat (trials c)) (random o, inner o) Hstep) as (st & ->); [lia|]. reflexivity.
Qed.
End Quiet.

Lemma eemd_parallel_random {A} `{Num A} {G D} (gen : generator A G) (dec : decomposer A D) c o S T k :
  parallel c = true -> random (snd (eemd gen dec c o S T k)) = random o.
Proof.
  intros Hp. unfold eemd. destruct (bind _ _) as [[T' scale]|e]; [|reflexivity]. rewrite Hp.
  destruct (pool_map _ _ _ _) as [ts [e|]]; [reflexivity|]. cbn [all_imfs].
  destruct (mapM _ _); [|reflexivity]. destruct (ensemble_mean _); [|reflexivity].
  destruct (minus_rows _ _); reflexivity.
Qed.

Lemma eemd_again {A} `{Num A} {G D} (gen : generator A G) (dec : decomposer A D) c o S T k :
  forgetful dec -> parallel c = true ->
  fst (eemd gen dec c (snd (eemd gen dec c o S T k)) S T k) = fst (eemd gen dec c o S T k).
Proof. intros HF Hp. apply eemd_same; auto. apply eemd_parallel_random. auto. Qed.

(** Seeding. *)
Lemma eemd_seeded {A} `{Num A} {G D} (gen : generator A G) (dec : decomposer A D) c s o1 o2 S T k :
  forgetful dec ->
  let x1 := eemd gen dec c (noise_seed gen o1 s) S T k in
  let x2 := eemd gen dec c (noise_seed gen o2 s) S T k in
  fst x1 = fst x2 /\
  forall E, fst x1 = Ok E -> eemd_imfs_and_residue (snd x1) = eemd_imfs_and_residue (snd x2) /\
    all_imfs (snd x1) = all_imfs (snd x2).
Proof.
  intros HF. cbv zeta.
  destruct (eemd_same gen dec HF c (noise_seed gen o1 s) (noise_seed gen o2 s) S T k eq_refl) as (E1 & _ & E3).
  split; auto. intros E HE. destruct (E3 E HE) as (A1 & A2 & A3). unfold eemd_imfs_and_residue.
  rewrite A1, A2. auto.
Qed.

Lemma emd_decomposer_run spl fuel cfg : forall d (X : list Qc) T k r d',
  run (emd_decomposer spl fuel cfg) d X T k = (Ok r, d') ->
  exists o, emd spl fuel cfg X (Some T) k = Ok o /\ r = out o.
Proof.
  intros d X T k r d'. cbn [run emd_decomposer]. unfold emd_call.
  destruct (emd spl fuel cfg X (Some T) k) as [o|e]; [|discriminate].
  intros E. injection E as <- <-. eauto.
Qed.

Lemma eemd_serial_noise {G D} (gen : generator Qc G) (dec : decomposer Qc D) :
  sized gen -> shapely dec ->
  forall c o S T k E o', separate_trends c = false -> parallel c = false ->
  eemd gen dec c o S T k = (Ok E, o') ->
  exists T' w noises rs, spread S w /\ length noises = Z.to_nat (trials c) /\ length rs = Z.to_nat (trials c) /\
    noise_stream gen (noise_kind c) (noise_width c * w)%Qc (length S) (random o) noises (random o') /\
    forall i r, nth_error rs i = Some r ->
       exists X d d', noisy S (nth i noises []) X /\ run dec d X T' k = (Ok r, d').
Proof.
  intros Hsz Hsh c o S T k E o' Hs Hp He.
  destruct (eemd_means gen dec Hsz Hsh _ _ _ _ _ _ _ Hs He) as
    (T' & w & noises & rs & A1 & _ & A2 & A3 & A4 & A5 & _).
  unfold noise_of in A4. rewrite Hp in A4. exists T', w, noises, rs. auto.
Qed.
