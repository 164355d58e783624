(** * KindsAll: what holds of every kind of curve, and the envelopes drawn with pchip and straight lines. *)
From Verif Require Import PyFacts QcFacts Emd Spec Demo EmdProofs EmdExact EmdTop EmdSimple DemoFacts.
From Verif Require Import ExtremaProofs ExtremaSpec PrepareProofs SplineProofs ReverseLin ReverseEmd RevSpec SymSpec Envelope.
From Verif Require Import EmdControl Runs EmdSym Kinds KindsSpec KindsProofs KindsRules KindsCubic KindsOnly KindsMono KindsQuad.
From Coq Require Import ZifyBool ZifyNat QArith Qcanon Lia.
Open Scope Z_scope.

(** ** Every kind *)
Lemma kinds_interpolate : interpolates scipy_spl.
Proof.
  intros k pts t HI H3 Ht. destruct k; cbn [scipy_spl]; try (apply lin_interpolates; auto).
  - apply (draw_total _ akima_rule); auto.
  - apply (draw_total _ cubic_rule); auto.
  - apply (draw_total _ pchip_rule); auto.
  - apply (draw_total _ gradient_rule); auto.
  - apply (qdraw_total _ quad_rule); auto.
Qed.
Lemma kinds_pass : passes_through scipy_spl.
Proof.
  intros k pts t v HI E. destruct k; cbn [scipy_spl] in E; try (eapply lin_passes; eassumption).
  - exact (draw_passes _ akima_rule _ _ _ E).
  - exact (draw_passes _ cubic_rule _ _ _ E).
  - exact (draw_passes _ pchip_rule _ _ _ E).
  - exact (draw_passes _ gradient_rule _ _ _ E).
  - exact (qdraw_passes _ quad_rule _ _ _ E).
Qed.
Lemma kinds_respond a b : responds (fun x => a * x + b)%Qc scipy_spl.
Proof.
  intros k pts t v E.
  assert (GL : forall k, lin_spl k pts t = Ok v -> lin_spl k (map (fun p => (fst p, a * snd p + b)%Qc) pts) t = Ok (map (fun x => a * x + b)%Qc v)).
  { intros k' E'. apply (lin_responds a b (fun x => a * x + b)%Qc); auto. }
  destruct k; cbn [scipy_spl] in *; try (apply GL; exact E).
  - exact (draw_affine _ akima_rule a b _ _ _ E).
  - exact (draw_affine _ cubic_rule a b _ _ _ E).
  - exact (draw_affine _ pchip_rule a b _ _ _ E).
  - exact (draw_affine _ gradient_rule a b _ _ _ E).
  - exact (qdraw_affine _ quad_rule a b _ _ _ E).
Qed.
Lemma responds_ext f g spl : (forall x, f x = g x) -> responds f spl -> responds g spl.
Proof.
  intros Hfg Hf k pts t v E. specialize (Hf k pts t v E).
  rewrite <- (map_ext _ _ Hfg). rewrite <- Hf. f_equal. apply map_ext. intros p. rewrite Hfg. reflexivity.
Qed.
Lemma kinds_turn : turns scipy_spl.
Proof.
  intros k pts t v L HI E. destruct k; cbn [scipy_spl] in *; try (eapply lin_turns; eassumption).
  - exact (draw_turn _ akima_rule L _ _ _ E).
  - exact (draw_turn _ cubic_rule L _ _ _ E).
  - exact (draw_turn _ pchip_rule L _ _ _ E).
  - exact (draw_turn _ gradient_rule L _ _ _ E).
  - exact (qdraw_turn _ quad_rule L _ _ _ E).
Qed.

(** ** The curve behind the values *)
Lemma kinds_curve k pts t v : smooth_kind k -> pts <> [] ->
  scipy_spl k pts t = Ok v ->
  exists ps, curve pts ps /\ joined slope pts ps /\ Forall2 (height pts ps) t v.
Proof.
  intros Hk Hn E.
  assert (G : forall sl, rule sl -> draw sl pts t = Ok v -> exists ps, curve pts ps /\ joined slope pts ps /\ Forall2 (height pts ps) t v).
  { intros sl R E'. destruct (draw_curve _ R _ _ _ E' Hn) as (ds & _ & _ & _ & A & B & C). eauto. }
  destruct Hk as [->|[->|[->| ->]]]; cbn [scipy_spl] in E.
  - exact (G _ akima_rule E).
  - exact (G _ cubic_rule E).
  - exact (G _ pchip_rule E).
  - exact (G _ gradient_rule E).
Qed.
Lemma cubic_only pts t v : (4 <= length pts)%nat -> scipy_spl Cubic pts t = Ok v ->
  exists ps, curve pts ps /\ joined slope pts ps /\ joined bend pts ps /\ not_a_knot ps /\ Forall2 (height pts ps) t v /\
    forall ps', curve pts ps' -> joined slope pts ps' -> joined bend pts ps' -> not_a_knot ps' -> ps' = ps.
Proof.
  intros H4 E. cbn [scipy_spl] in E. destruct (draw_curve _ cubic_rule _ _ _ E) as (ds & Ed & Ld & HI & A & B & C).
  { intros ->. cbn in H4. lia. }
  destruct (cubic_curve pts ds H4 HI Ed) as [D F]. exists (pieces (combine pts ds)). repeat (split; auto).
  intros ps' G1 G2 G3 G4. apply cubic_unique; auto.
Qed.

(** ** Monotone kinds *)
Fixpoint tame_all (ks : list (Qc * Qc * Qc)) : Prop :=
  match ks with
  | (p, d) :: (((q, d') :: _) as ks') => tame (chord p q) d /\ tame (chord p q) d' /\ tame_all ks'
  | _ => True
  end.
Lemma tame_all_at a p d q d' b : tame_all (a ++ (p, d) :: (q, d') :: b) -> tame (chord p q) d /\ tame (chord p q) d'.
Proof.
  induction a as [|[p0 d0] a IH]; [cbn; tauto|]. intros HT. apply IH. cbn [app tame_all] in HT.
  destruct a as [|[p1 d1] a]; cbn [app] in *; tauto.
Qed.
Lemma pchip_walk f l : forall p q e, increasing (map fst (p :: q :: l)) -> tame (chord p q) e ->
  (forall a x y, p :: q :: l = a ++ [x; y] -> tame (chord x y) f) ->
  tame_all (combine (p :: q :: l) (e :: map pchip3 (triples (p :: q :: l)) ++ [f])).
Proof.
  induction l as [|r l IH]; intros p q e HI He Hf.
  - cbn. split; auto. split; auto. apply (Hf [] p q). reflexivity.
  - rewrite triples_cons. cbn [map app].
    pose proof (ReverseLin.increasing_hd _ _ _ HI) as H1. pose proof (ReverseLin.increasing_tl _ _ HI) as HI'.
    pose proof (ReverseLin.increasing_hd _ _ _ HI') as H2. destruct (pchip3_tame p q r H1 H2) as [T1 T2].
    specialize (IH q r (pchip3 (p, q, r)) HI' T2). cbn [combine tame_all] in *. split; auto. split; auto. apply IH.
    intros a x y Ea. apply (Hf (p :: a)). cbn [app]. rewrite Ea. reflexivity.
Qed.
Lemma pchip_all pts ds : increasing (map fst pts) -> pchip_slopes pts = Ok ds -> tame_all (combine pts ds).
Proof.
  intros HI E. assert (H3 : (3 <= length pts)%nat) by (destruct pts as [|p0 [|p1 [|p2 l]]]; try discriminate; cbn; lia).
  destruct (ends_ex pts H3) as (p0 & p1 & p2 & r0 & r1 & r2 & l & m & -> & ER).
  unfold pchip_slopes in E. rewrite ER in E. apply ok_inv in E. subst ds.
  pose proof (ReverseLin.increasing_hd _ _ _ HI) as H1. pose proof (ReverseLin.increasing_tl _ _ HI) as HI'.
  pose proof (ReverseLin.increasing_hd _ _ _ HI') as H2.
  apply pchip_walk; auto.
  - apply edge_tame; unfold gap; num_qc; qclra.
  - intros a x y Ea. assert (Er := f_equal (@rev _) Ea). rewrite ER, rev_app_distr in Er. cbn [rev app] in Er. injection Er as -> -> Er.
    rewrite Ea in ER, HI. assert (Ha : a = rev m ++ [r2]).
    { rewrite rev_app_distr in ER. cbn [rev app] in ER. injection ER as ER. apply (f_equal (@rev _)) in ER.
      rewrite rev_involutive in ER. rewrite ER. reflexivity. }
    assert (HP : forall u w z, map fst (a ++ [x; y]) = u ++ w :: z -> True) by auto. clear HP.
    pose proof (proj1 (increasing_pair _) HI) as HP.
    assert (G1 : (fst r2 < fst x)%Qc).
    { apply (HP (map fst (rev m)) _ _ [fst y]). rewrite Ha, !map_app, <- app_assoc. reflexivity. }
    assert (G2 : (fst x < fst y)%Qc).
    { apply (HP (map fst a) _ _ []). rewrite map_app. reflexivity. }
    apply edge_tame; unfold gap; num_qc; qclra.
Qed.

Lemma seg_mono x0 y0 x1 y1 u u' : (x0 < x1)%Qc -> (x0 <= u)%Qc -> (u <= u')%Qc -> (u' <= x1)%Qc ->
  ((y0 <= y1)%Qc -> (seg x0 y0 x1 y1 u <= seg x0 y0 x1 y1 u')%Qc) /\
  ((y1 <= y0)%Qc -> (seg x0 y0 x1 y1 u' <= seg x0 y0 x1 y1 u)%Qc).
Proof.
  intros Hx U0 UU U1. pose proof (frac_le x0 x1 u u' Hx UU) as F. unfold seg.
  set (t := ((u - x0) / (x1 - x0))%Qc) in *. set (t' := ((u' - x0) / (x1 - x0))%Qc) in *. clearbody t t'.
  split; intros Hy; apply Qcplus_le_compat; try apply Qcle_refl.
  - apply Qcmult_le_compat_r; auto. qclra.
  - pose proof (mul_nonneg (t' - t) (y0 - y1) ltac:(qclra) ltac:(qclra)) as G.
    replace ((t' - t) * (y0 - y1))%Qc with (t * (y1 - y0) - t' * (y1 - y0))%Qc in G by ring. qclra.
Qed.

Lemma kinds_monotone k pts t v : monotone_kind k -> increasing (map fst pts) -> scipy_spl k pts t = Ok v ->
  forall a p q b, pts = a ++ p :: q :: b ->
  forall i j u u' w w', nth_error t i = Some u -> nth_error t j = Some u' -> nth_error v i = Some w -> nth_error v j = Some w' ->
  (fst p <= u)%Qc -> (u <= u')%Qc -> (u' <= fst q)%Qc ->
  ((snd p <= snd q)%Qc -> (w <= w')%Qc) /\ ((snd q <= snd p)%Qc -> (w' <= w)%Qc).
Proof.
  intros Hk HI E a p q b Ep i j u u' w w' Ei Ej Vi Vj U0 UU U1.
  assert (Hpq : (fst p < fst q)%Qc).
  { apply (proj1 (increasing_pair _) HI (map fst a) _ _ (map fst b)). rewrite Ep, map_app. reflexivity. }
  assert (GL : forall k, lin_spl k pts t = Ok v -> ((snd p <= snd q)%Qc -> (w <= w')%Qc) /\ ((snd q <= snd p)%Qc -> (w' <= w)%Qc)).
  { intros k' E'. unfold lin_spl in E'. destruct p as [x0 y0], q as [x1 y1]. cbn [fst snd] in *.
    destruct (mapM_nth _ _ _ E' i _ Ei) as (z & Ez & Fz). destruct (mapM_nth _ _ _ E' j _ Ej) as (z' & Ez' & Fz').
    rewrite Vi in Ez. injection Ez as <-. rewrite Vj in Ez'. injection Ez' as <-. rewrite Ep in Fz, Fz', HI.
    rewrite seg_lin_at in Fz, Fz'; auto; try qclra. apply ok_inv in Fz, Fz'. subst w w'. apply seg_mono; auto. }
  destruct Hk as [->|[->| ->]]; cbn [scipy_spl] in E; eauto.
  destruct (draw_inv _ pchip_rule _ _ _ E) as (ds & Ed & Ld & _ & Ev). pose proof (pchip_all _ _ HI Ed) as HT.
  assert (EC : exists a' d d' b', combine pts ds = a' ++ (p, d) :: (q, d') :: b').
  { clear - Ep Ld. subst pts. revert ds Ld. induction a as [|p0 a IH]; intros ds Ld; cbn [app length] in Ld.
    - destruct ds as [|d [|d' ds]]; cbn [length] in Ld; try lia. exists [], d, d', (combine b ds). reflexivity.
    - destruct ds as [|d0 ds]; cbn [length] in Ld; try lia. destruct (IH ds ltac:(lia)) as (a' & d & d' & b' & EC).
      exists ((p0, d0) :: a'), d, d', b'. cbn [app combine]. rewrite EC. reflexivity. }
  destruct EC as (a' & d & d' & b' & EC).
  assert (HI' : increasing (map fst (map fst (combine pts ds)))) by (rewrite combine_fst; auto).
  rewrite EC in HT, Ev, HI'. apply tame_all_at in HT as [T1 T2]. unfold chord, gap in T1, T2. num_qc.
  destruct (mapM_nth _ _ _ Ev i _ Ei) as (z & Ez & Fz). destruct (mapM_nth _ _ _ Ev j _ Ej) as (z' & Ez' & Fz').
  rewrite Vi in Ez. injection Ez as <-. rewrite Vj in Ez'. injection Ez' as <-. destruct p as [x0 y0], q as [x1 y1]. cbn [fst snd] in *.
  rewrite seg_ppoly in Fz, Fz'; auto; try qclra. apply ok_inv in Fz, Fz'. subst w w'. apply hermite_mono; auto.
Qed.

(** Hence within the values of the knots. *)
Lemma kinds_within k pts t v lo hi : monotone_kind k -> increasing (map fst pts) -> scipy_spl k pts t = Ok v ->
  (forall p, In p pts -> (lo <= snd p)%Qc /\ (snd p <= hi)%Qc) -> forall w, In w v -> (lo <= w)%Qc /\ (w <= hi)%Qc.
Proof.
  intros Hk HI E HB w Hw. apply In_nth_error in Hw as (i & Hi).
  assert (GL : forall k, lin_spl k pts t = Ok v -> (lo <= w)%Qc /\ (w <= hi)%Qc).
  { intros k' E'. unfold lin_spl in E'. pose proof (mapM_ok_length _ _ _ E') as HL.
    destruct (nth_error t i) as [u|] eqn:Ei; [|apply nth_error_None in Ei; assert (nth_error v i = None) by (apply nth_error_None; lia); congruence].
    destruct (mapM_nth _ _ _ E' i _ Ei) as (z & Ez & Fz). rewrite Hi in Ez. injection Ez as <-.
    destruct (lin_at_seg _ _ _ Fz) as (a & x0 & y0 & x1 & y1 & b & Ep & U0 & U1 & ->).
    assert (Hpq : (x0 < x1)%Qc).
    { apply (proj1 (increasing_pair _) HI (map fst a) _ _ (map fst b)). rewrite Ep, map_app. reflexivity. }
    destruct (HB (x0, y0)) as [A1 A2]; [rewrite Ep; apply in_or_app; right; left; auto|].
    destruct (HB (x1, y1)) as [B1 B2]; [rewrite Ep; apply in_or_app; right; right; left; auto|]. cbn [snd] in *.
    destruct (seg_mono x0 y0 x1 y1 x0 u Hpq (Qcle_refl _) U0 U1) as [P1 P2].
    destruct (seg_mono x0 y0 x1 y1 u x1 Hpq U0 U1 (Qcle_refl _)) as [Q1 Q2].
    rewrite seg_left in P1, P2. rewrite seg_right in Q1, Q2 by auto. set (z := seg x0 y0 x1 y1 u) in *. clearbody z.
    destruct (Qclt_le_dec y0 y1) as [C|C].
    - specialize (P1 ltac:(qclra)). specialize (Q1 ltac:(qclra)). clear P2 Q2. split; qclra.
    - specialize (P2 C). specialize (Q2 C). clear P1 Q1. split; qclra. }
  destruct Hk as [->|[->| ->]]; cbn [scipy_spl] in E; eauto.
  destruct (draw_inv _ pchip_rule _ _ _ E) as (ds & Ed & Ld & _ & Ev). pose proof (pchip_all _ _ HI Ed) as HT.
  pose proof (mapM_ok_length _ _ _ Ev) as HL.
  destruct (nth_error t i) as [u|] eqn:Ei; [|apply nth_error_None in Ei; assert (nth_error v i = None) by (apply nth_error_None; lia); congruence].
  destruct (mapM_nth _ _ _ Ev i _ Ei) as (z & Ez & Fz). rewrite Hi in Ez. injection Ez as <-.
  destruct (ppoly_seg _ _ _ Fz) as (a & x0 & y0 & d0 & x1 & y1 & d1 & b & Ec & U0 & U1 & ->).
  pose proof (combine_fst pts ds Ld) as EF. rewrite Ec in HT, EF. apply tame_all_at in HT as [T1 T2]. unfold chord, gap in T1, T2. num_qc.
  assert (Hpq : (x0 < x1)%Qc).
  { apply (proj1 (increasing_pair _) HI (map fst (map fst a)) _ _ (map fst (map fst b))). rewrite <- EF, !map_app. reflexivity. }
  destruct (HB (x0, y0)) as [A1 A2]; [rewrite <- EF, map_app; apply in_or_app; right; left; auto|].
  destruct (HB (x1, y1)) as [B1 B2]; [rewrite <- EF, map_app; apply in_or_app; right; right; left; auto|]. cbn [fst snd] in *.
  destruct (hermite_mono x0 y0 d0 x1 y1 d1 x0 u Hpq T1 T2 (Qcle_refl _) U0 U1) as [P1 P2].
  destruct (hermite_mono x0 y0 d0 x1 y1 d1 u x1 Hpq T1 T2 U0 U1 (Qcle_refl _)) as [Q1 Q2].
  rewrite hermite_left in P1, P2. rewrite hermite_right in Q1, Q2 by auto. set (z := hermite_at x0 y0 d0 x1 y1 d1 u) in *. clearbody z.
  clear T1 T2. destruct (Qclt_le_dec y0 y1) as [C|C].
  - specialize (P1 ltac:(qclra)). specialize (Q1 ltac:(qclra)). clear P2 Q2. split; qclra.
  - specialize (P2 C). specialize (Q2 C). clear P1 Q1. split; qclra.
Qed.

(** ** Envelopes *)
Lemma spline_within k kind n S M cl cr P v lo hi : parse_kind kind = Some k -> monotone_kind k ->
  env_ok n S M cl cr P -> spline_points scipy_spl kind (tz n) P = Ok v ->
  (forall i, 0 <= i < Z.of_nat n -> (lo <= sample S i)%Qc /\ (sample S i <= hi)%Qc) ->
  length v = n /\ forall w, In w v -> (lo <= w)%Qc /\ (w <= hi)%Qc.
Proof.
  intros Hp Hk HE E HB. pose proof (window_all _ _ _ _ _ _ HE) as HW. unfold spline_points in E. rewrite HW in E. cbn [bind] in E.
  rewrite Hp in E. assert (E' : scipy_spl k P (tz n) = Ok v).
  { destruct Hk as [->|[->| ->]]; exact E. }
  destruct HE as [HI H3 HO _ _ HA]. split.
  - destruct (kinds_pass k P (tz n) v HI E') as (L & _). rewrite tz_length in L. exact L.
  - intros w Hw. apply (kinds_within k P (tz n) v lo hi Hk HI E'); auto.
    intros p Hin. destruct (HA p Hin) as (i & Hi & -> & _). auto.
Qed.
Lemma envelopes_within k c S up lo P Q a b : parse_kind (spline_kind c) = Some k -> monotone_kind k ->
  extrema_detection c = Simple -> 1 <= nbsym c ->
  extract_max_min_spline scipy_spl c (arange (length S)) S = Ok (up, lo, P, Q) ->
  (forall x, In x S -> (a <= x)%Qc /\ (x <= b)%Qc) ->
  (forall x, In x up -> (a <= x)%Qc /\ (x <= b)%Qc) /\ (forall x, In x lo -> (a <= x)%Qc /\ (x <= b)%Qc).
Proof.
  intros Hp Hk HD Hnb E HB. rewrite arange_tz in E. unfold extract_max_min_spline in E. rewrite HD in E.
  destruct (detect_prepare S (nbsym c) Hnb) as (e & M & m & E' & E1 & E2 & R1 & R2 & HP).
  rewrite E' in E. cbn [bind] in E. rewrite E1, E2, !zlen_map in E.
  destruct (Z.ltb_spec (zlen M + zlen m) 3) as [D|D]; [discriminate E|].
  destruct (HP ltac:(lia)) as (P' & Q' & cl & cr & EP & O1 & O2 & _). rewrite EP in E. cbn [bind] in E.
  apply bind_ok in E as (u & F3 & E). apply bind_ok in E as (w & F4 & E). injection E as -> -> -> ->.
  assert (HB' : forall i, 0 <= i < Z.of_nat (length S) -> (a <= sample S i)%Qc /\ (sample S i <= b)%Qc).
  { intros i Hi. apply HB. unfold sample. apply nth_In. lia. }
  split.
  - exact (proj2 (spline_within k _ _ _ _ _ _ _ _ a b Hp Hk O1 F3 HB')).
  - exact (proj2 (spline_within k _ _ _ _ _ _ _ _ a b Hp Hk O2 F4 HB')).
Qed.
Lemma mean_bounds a b x u l : (a <= u)%Qc -> (u <= b)%Qc -> (a <= l)%Qc -> (l <= b)%Qc ->
  (x - b <= x - (u + l) / Qc_ofZ 2)%Qc /\ (x - (u + l) / Qc_ofZ 2 <= x - a)%Qc.
Proof.
  intros. rewrite two_qc. assert (E : ((u + l) / (1 + 1) * (1 + 1) = u + l)%Qc) by (field; discriminate).
  set (m := ((u + l) / (1 + 1))%Qc) in *. clearbody m. rewrite Qcmult_comm, dbl in E. split; qclra.
Qed.
(** One sift of a signal within [a, b] stays within b - a of zero. *)
Lemma sift_within k c x y a b : parse_kind (spline_kind c) = Some k -> monotone_kind k ->
  extrema_detection c = Simple -> 1 <= nbsym c -> one_sift scipy_spl c (arange (length x)) x y ->
  (forall u, In u x -> (a <= u)%Qc /\ (u <= b)%Qc) ->
  forall u, In u y -> (a - b <= u)%Qc /\ (u <= b - a)%Qc.
Proof.
  intros Hp Hk HD Hnb H1 HB u Hu.
  destruct (sift_at_extrema scipy_spl kinds_pass c x y HD Hnb H1) as (up & lo & P & Q & E & HL & HM & _).
  destruct (envelopes_touch scipy_spl kinds_pass c x up lo P Q HD Hnb E) as (L1 & L2 & _).
  destruct (envelopes_within k c x up lo P Q a b Hp Hk HD Hnb E HB) as [W1 W2].
  apply (In_nth _ _ (Q2Qc 0)) in Hu as (i & Hi & <-).
  specialize (HM (Z.of_nat i) ltac:(unfold zlen; lia)). unfold sample in HM. rewrite Nat2Z.id in HM.
  change n0 with (Q2Qc 0) in HM. rewrite HM.
  destruct (HB (nth i x (Q2Qc 0))) as [X1 X2]; [apply nth_In; lia|].
  destruct (W1 (nth i up (Q2Qc 0))) as [U1 U2]; [apply nth_In; lia|].
  destruct (W2 (nth i lo (Q2Qc 0))) as [D1 D2]; [apply nth_In; lia|].
  destruct (mean_bounds a b (nth i x (Q2Qc 0)) _ _ U1 U2 D1 D2) as [M1 M2].
  set (z := (nth i x (Q2Qc 0) - (nth i up (Q2Qc 0) + nth i lo (Q2Qc 0)) / Qc_ofZ 2)%Qc) in *. clearbody z. split; qclra.
Qed.
Lemma pow2_S k : Qc_ofZ (2 ^ Z.of_nat (Datatypes.S k)) = (Qc_ofZ (2 ^ Z.of_nat k) * Qc_ofZ 2)%Qc.
Proof.
  rewrite Nat2Z.inj_succ, Z.pow_succ_r by lia. rewrite Z.mul_comm. apply Qc_ofZ_mul.
Qed.
(** Hence k sifts at most double the amplitude k times. *)
Lemma sifted_within k c n x y B : parse_kind (spline_kind c) = Some k -> monotone_kind k ->
  extrema_detection c = Simple -> 1 <= nbsym c -> sifted scipy_spl c n x y ->
  (forall u, In u x -> (Qc_abs u <= B)%Qc) ->
  forall u, In u y -> (Qc_abs u <= Qc_ofZ (2 ^ Z.of_nat n) * B)%Qc.
Proof.
  intros Hp Hk HD Hnb HS. revert B. induction HS as [n x|n x y z P Q E HS IH]; intros B HB u Hu.
  - specialize (HB u Hu). pose proof (Qc_abs_nonneg u) as H0. assert (G : (1 <= Qc_ofZ (2 ^ Z.of_nat n))%Qc).
    { clear. assert (H : 1 <= 2 ^ Z.of_nat n) by (apply (Z.pow_le_mono_r 2 0); lia). change 1%Qc with (Qc_ofZ 1). apply Qc_ofZ_le. exact H. }
    pose proof (mul_nonneg (Qc_ofZ (2 ^ Z.of_nat n) - 1) B ltac:(qclra) ltac:(qclra)) as K.
    replace ((Qc_ofZ (2 ^ Z.of_nat n) - 1) * B)%Qc with (Qc_ofZ (2 ^ Z.of_nat n) * B - B)%Qc in K by ring.
    set (w := (Qc_ofZ (2 ^ Z.of_nat n) * B)%Qc) in *. clearbody w. clear G. qclra.
  - rewrite pow2_S, two_qc. replace (Qc_ofZ (2 ^ Z.of_nat n) * (1 + 1) * B)%Qc with (Qc_ofZ (2 ^ Z.of_nat n) * (B + B))%Qc by ring.
    apply IH; auto. intros w Hw.
    assert (H1 : one_sift scipy_spl c (arange (length x)) x y) by (exists P, Q; exact E).
    apply Qc_abs_le. destruct (sift_within k c x y (- B)%Qc B Hp Hk HD Hnb H1) with (u := w) as [A1 A2]; auto.
    { intros v Hv. apply Qc_abs_le. auto. }
    split; qclra.
Qed.

(** The curves never loop. *)
Lemma kinds_no_fuel k pts (t : list Qc) : scipy_spl k pts t <> Raise OutOfFuel.
Proof.
  assert (G : forall sl, sl pts <> Raise OutOfFuel -> draw sl pts t <> Raise OutOfFuel).
  { intros sl Hs. unfold draw. destruct (strictly_up (map fst pts)); [|discriminate].
    destruct (sl pts) as [ds|e] eqn:Es; [|cbn [bind]; intros C; apply Hs; exact C]. cbn [bind]. apply ff_mapM.
    intros u. generalize (combine pts ds). clear. intros ks. induction ks as [|[[x0 y0] d0] [|[[x1 y1] d1] ks] IH]; try discriminate.
    cbn [ppoly]. destruct (nltb u x0); [discriminate|]. destruct (nleb u x1); [discriminate|]. exact IH. }
  assert (GQ : forall sl, sl pts <> Raise OutOfFuel -> qdraw sl pts t <> Raise OutOfFuel).
  { intros sl Hs. unfold qdraw. destruct (strictly_up (map fst pts)); [|discriminate].
    destruct (sl pts) as [ds|e] eqn:Es; [|cbn [bind]; intros C; apply Hs; exact C]. cbn [bind]. apply ff_mapM.
    intros u. generalize (combine pts ds). clear. intros ks. induction ks as [|[[x0 y0] d0] [|[[x1 y1] d1] ks] IH]; try discriminate.
    cbn [qpoly]. destruct (nltb u x0); [discriminate|]. destruct (nleb u x1); [discriminate|]. exact IH. }
  destruct k; cbn [scipy_spl]; try apply lin_no_fuel; try apply G; try apply GQ.
  - destruct pts as [|p0 [|p1 [|p2 l]]]; discriminate.
  - unfold cubic_slopes. destruct pts as [|p0 [|p1 [|p2 [|p3 l]]]]; try discriminate;
      (destruct (rev _) as [|r0 [|r1 [|r2 m]]]; try discriminate). unfold Compact.TDMAsolver.
    destruct (_ && _)%bool; [|discriminate]. discriminate.
  - unfold pchip_slopes. destruct pts as [|p0 [|p1 [|p2 l]]]; try discriminate;
      (destruct (rev _) as [|r0 [|r1 [|r2 m]]]; discriminate).
  - unfold gradient_slopes. destruct pts as [|p0 [|p1 [|p2 l]]]; try discriminate;
      (destruct (rev _) as [|r0 [|r1 m]]; discriminate).
  - unfold quad_slopes. destruct pts as [|p0 [|p1 [|p2 l]]]; try discriminate;
      (destruct (rev _) as [|r0 [|r1 m]]; try discriminate). unfold Compact.TDMAsolver.
    destruct (_ && _)%bool; [|discriminate]. discriminate.
Qed.
