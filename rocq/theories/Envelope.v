(** * Envelope: the envelopes pass through the extrema of the signal (exact arithmetic). *)
From Verif Require Import PyFacts QcFacts Emd Spec Demo EmdProofs EmdExact EmdTop EmdSimple DemoFacts.
From Verif Require Import ExtremaProofs ExtremaSpec PrepareProofs SplineProofs ReverseLin ReverseEmd.
From Coq Require Import ZifyBool ZifyNat QArith Qcanon Lia.
Open Scope Z_scope.

(** An interpolation routine: on increasing knots it gives one value per instant, and at an instant that
    is a knot the value of the knot. *)
Definition passes_through (spl : spline_oracle Qc) : Prop :=
  forall kind pts t v, increasing (map fst pts) -> spl kind pts t = Ok v ->
  length v = length t /\
  forall i p, In p pts -> nth_error t i = Some (fst p) -> nth_error v i = Some (snd p).

(** Piecewise linear interpolation is one. *)
Lemma lin_at_knot pts : increasing (map fst pts) -> forall p v, In p pts -> lin_at pts (fst p) = Ok v -> v = snd p.
Proof.
  induction pts as [|[x0 y0] pts IH]; intros HI p v Hp E; [destruct Hp|].
  destruct pts as [|[x1 y1] pts]; [discriminate E|].
  pose proof (ReverseLin.increasing_hd _ _ _ HI) as H01. cbn [fst] in H01.
  cbn [lin_at] in E. destruct (nltb (fst p) x0) eqn:E0; [discriminate E|].
  destruct (nleb (fst p) x1) eqn:E1.
  - injection E as <-. change (seg x0 y0 x1 y1 (fst p) = snd p). destruct Hp as [<-|[<-|Hp]]; cbn [fst snd].
    + apply seg_left.
    + apply seg_right; auto.
    + exfalso. pose proof (ReverseLin.increasing_tl _ _ HI) as H1. cbn [map fst] in H1.
      pose proof (ReverseLin.increasing_in _ _ H1 (fst p) (in_map fst _ _ Hp)). num_qc. qclra.
  - destruct Hp as [<-|Hp].
    + exfalso. cbn [fst] in E1. num_qc. qclra.
    + apply (IH (ReverseLin.increasing_tl _ _ HI)); auto.
Qed.

Lemma mapM_nth {X Y} (f : X -> res Y) l v : mapM f l = Ok v ->
  forall i x, nth_error l i = Some x -> exists y, nth_error v i = Some y /\ f x = Ok y.
Proof.
  revert v. induction l as [|a l IH]; intros v E i x Hi; [destruct i; discriminate Hi|].
  cbn [mapM] in E. apply bind_ok in E as (y & E1 & E). apply bind_ok in E as (ys & E2 & E). injection E as <-.
  destruct i as [|i]; cbn [nth_error] in *; [injection Hi as <-; eauto|eauto].
Qed.

Lemma lin_passes : passes_through lin_spl.
Proof.
  intros k pts t v HI E. split; [eapply mapM_ok_length; eauto|]. intros i p Hp Hi.
  destruct (mapM_nth _ _ _ E i _ Hi) as (y & Hy & Ey). rewrite Hy. f_equal. eapply lin_at_knot; eauto.
Qed.

Lemma tz_nth n i : 0 <= i < Z.of_nat n -> nth_error (tz n) (Z.to_nat i) = Some (Qc_ofZ i).
Proof.
  intros Hi. rewrite <- sample_tz with (n := n) by lia. unfold sample. apply nth_error_nth'. rewrite tz_length. lia.
Qed.

Lemma half_diff a b : (a - (a + b) / Qc_ofZ 2 = (a - b) / Qc_ofZ 2)%Qc.
Proof.
  replace (Qc_ofZ 2) with (1 + 1)%Qc by (apply Qc_is_canon; reflexivity). field. intros C. vm_compute in C. discriminate C.
Qed.

Section Touch.
Variable spl : spline_oracle Qc.
Hypothesis Hspl : passes_through spl.

Lemma spline_touches kind n S M cl cr P v : env_ok n S M cl cr P -> length S = n ->
  spline_points spl kind (tz n) P = Ok v ->
  length v = n /\ forall i, In i M -> 0 <= i < Z.of_nat n -> sample v i = sample S i.
Proof.
  intros HE HS E. pose proof (window_all _ _ _ _ _ _ HE) as HW. unfold spline_points in E. rewrite HW in E. cbn [bind] in E.
  destruct HE as [HI H3 HO _ _ _].
  assert (G : forall k, spl k P (tz n) = Ok v -> length v = n /\ forall i, In i M -> 0 <= i < Z.of_nat n -> sample v i = sample S i).
  { intros k Ek. destruct (Hspl k P (tz n) v HI Ek) as (L & K). rewrite tz_length in L. split; auto. intros i Hi Hr.
    pose proof (K (Z.to_nat i) _ (HO i Hi) (tz_nth n i Hr)) as G. cbn [snd] in G.
    unfold sample at 1. apply nth_error_nth. exact G. }
  destruct (parse_kind kind) as [k|]; [|discriminate E]. destruct k; eauto.
  destruct (Z.ltb_spec 3 (zlen P)) as [H4|H4]; eauto.
  destruct P as [|[x0 y0] [|[x1 y1] [|[x2 y2] [|? P]]]]; unfold zlen in *; cbn [length] in *; try lia.
  assert (G1 : (x0 < x1)%Qc) by (apply (HI 0%nat); simpl; lia).
  assert (G2 : (x1 < x2)%Qc) by (apply (HI 1%nat); simpl; lia).
  destruct (cubic3_spec x0 y0 x1 y1 x2 y2 (tz n) G1 G2 (tz_increasing n)) as (p & q & w & N & Ec & Ew).
  rewrite Ec in E. cbn [bind] in E. injection E as <-.
  assert (HF : filter (fun u => Qc_leb x0 u && Qc_leb u x2) (tz n) = tz n) by (injection HW as HW; exact HW).
  rewrite HF in Ew. subst w. split; [rewrite map_length; apply tz_length|]. intros i Hi Hr.
  unfold sample at 1. apply nth_error_nth. rewrite nth_error_map, (tz_nth n i Hr). cbn [option_map]. f_equal.
  destruct N as (_ & _ & N1 & N2 & N3 & N4 & _).
  destruct (HO i Hi) as [J|[J|[J|[]]]]; injection J as J1 J2; rewrite <- J1, <- J2.
  - rewrite (proj2 (Qc_ltb_lt x0 x1) G1). exact N1.
  - rewrite (proj2 (Qc_ltb_ge x1 x1)) by apply Qcle_refl. exact N3.
  - rewrite (proj2 (Qc_ltb_ge x2 x1)) by (apply Qclt_le_weak; auto). exact N4.
Qed.

Lemma envelopes_touch c S up lo P Q : extrema_detection c = Simple -> 1 <= nbsym c ->
  extract_max_min_spline spl c (arange (length S)) S = Ok (up, lo, P, Q) ->
  length up = length S /\ length lo = length S /\
  (forall i, reported_max S i -> sample up i = sample S i) /\
  (forall i, reported_min S i -> sample lo i = sample S i).
Proof.
  intros HD Hnb E. rewrite arange_tz in E. unfold extract_max_min_spline in E. rewrite HD in E.
  destruct (detect_prepare S (nbsym c) Hnb) as (e & M & m & E' & E1 & E2 & R1 & R2 & HP).
  rewrite E' in E. cbn [bind] in E. rewrite E1, E2, !zlen_map in E.
  destruct (Z.ltb_spec (zlen M + zlen m) 3) as [D|D]; [discriminate E|].
  destruct (HP ltac:(lia)) as (P' & Q' & cl & cr & EP & O1 & O2 & _). rewrite EP in E. cbn [bind] in E.
  apply bind_ok in E as (u & F3 & E). apply bind_ok in E as (w & F4 & E). injection E as -> -> -> ->.
  destruct (spline_touches _ _ _ _ _ _ _ _ O1 eq_refl F3) as (L1 & T1).
  destruct (spline_touches _ _ _ _ _ _ _ _ O2 eq_refl F4) as (L2 & T2).
  split; auto. split; auto. split; intros i Hi.
  - apply rep_max_iff in Hi. apply T1; [apply R1; auto|]. apply rep_range in Hi. unfold zlen in Hi. lia.
  - apply rep_min_iff in Hi. apply T2; [apply R2; auto|]. apply rep_range in Hi. unfold zlen in Hi. lia.
Qed.

Lemma sift_at_extrema c x y : extrema_detection c = Simple -> 1 <= nbsym c ->
  one_sift spl c (arange (length x)) x y ->
  exists up lo P Q, extract_max_min_spline spl c (arange (length x)) x = Ok (up, lo, P, Q) /\ length y = length x /\
    (forall i, 0 <= i < zlen x -> sample y i = (sample x i - (sample up i + sample lo i) / Qc_ofZ 2)%Qc) /\
    (forall i, reported_max x i -> sample y i = ((sample x i - sample lo i) / Qc_ofZ 2)%Qc) /\
    (forall i, reported_min x i -> sample y i = ((sample x i - sample up i) / Qc_ofZ 2)%Qc).
Proof.
  intros HD Hnb H1. destruct (one_sift_mean _ _ _ _ _ H1) as (e & P & Q & up & lo & F1 & F2 & F3 & F4 & F5 & F6 & F7).
  assert (E : extract_max_min_spline spl c (arange (length x)) x = Ok (up, lo, P, Q)).
  { unfold extract_max_min_spline. rewrite F1. cbn [bind].
    rewrite (proj2 (Z.ltb_ge _ _)) by lia. rewrite F3. cbn [bind]. rewrite F4. cbn [bind]. rewrite F5. reflexivity. }
  destruct (envelopes_touch c x up lo P Q HD Hnb E) as (L1 & L2 & T1 & T2).
  assert (G : forall i, 0 <= i < zlen x -> sample y i = (sample x i - (sample up i + sample lo i) / Qc_ofZ 2)%Qc).
  { intros i Hi. apply (F7 L1 L2). unfold zlen in Hi. lia. }
  exists up, lo, P, Q. split; [exact E|]. split; [exact F6|]. split; [exact G|].
  split; intros i Hi.
  - rewrite G, T1 by (auto; apply rep_max_iff, rep_range in Hi; lia). apply half_diff.
  - rewrite G, T2 by (auto; apply rep_min_iff, rep_range in Hi; lia). rewrite Qcplus_comm. apply half_diff.
Qed.
End Touch.
