(** * NearProofs: one sift of two signals that differ little. *)
From Verif Require Import PyFacts QcFacts Emd Spec Demo EmdProofs EmdExact EmdTop EmdSimple DemoFacts EmdSym.
From Verif Require Import Runs ExtremaProofs ExtremaSpec PrepareProofs PreparePlan SplineProofs ReverseLin ReverseEmd Envelope.
From Verif Require Import RevSpec SymSpec Kinds KindsSpec KindsProofs KindsRules KindsCubic KindsOnly KindsMono KindsAll KindsExact ParabolProofs.
From Verif Require Import LocalSpec LocalProofs NearSpec.
From Coq Require Import ZifyBool ZifyNat QArith Qcanon Lia.
Open Scope Z_scope.
Local Notation pt := (Qc * Qc)%type.

(** ** From distances to orders *)
Lemma separated_shape e x x' : close e x x' -> separated e x -> same_shape x x'.
Proof.
  intros [HL HC] HS. split; auto. intros i j Hij. destruct (HC i) as [C1 C2], (HC j) as [C3 C4].
  destruct (HS i j Hij) as [H|H]; split; intros G; qclra.
Qed.
Lemma compared_sym n i j : compared n i j -> compared n j i.
Proof. unfold compared. intros (H1 & H2 & H3 & H4). repeat split; try lia. Qed.

Lemma shape_sgn x x' k : same_shape x x' -> 0 <= k < zlen x - 1 -> sgn x k = sgn x' k.
Proof.
  intros [HL HS] Hk.
  assert (C : compared (zlen x) k (k + 1)) by (unfold compared; lia).
  pose proof (HS _ _ C) as H1. pose proof (HS _ _ (compared_sym _ _ _ C)) as H2.
  destruct (sgn_cases x k) as [[E1 F1]|[[E1 F1]|[E1 F1]]], (sgn_cases x' k) as [[E2 F2]|[[E2 F2]|[E2 F2]]]; rewrite E1, E2; auto; exfalso.
  - apply H1 in F1. qclra.
  - apply H1 in F1. qclra.
  - apply H2 in F1. qclra.
  - apply H2 in F1. qclra.
  - apply H1 in F2. qclra.
  - apply H2 in F2. qclra.
Qed.

Lemma shape_rep_one x x' s i : same_shape x x' -> rep x s i -> rep x' s i.
Proof.
  intros HS (a & b & H1 & H2 & H3 & H4 & H5). pose proof HS as [HL _].
  assert (HZ : zlen x = zlen x') by (unfold zlen; lia).
  assert (H0 : 0 <= a) by lia.
  assert (G : forall k, 0 <= k < zlen x - 1 -> sgn x' k = sgn x k) by (intros; symmetry; apply shape_sgn; auto).
  exists a, b. rewrite <- HZ. split; auto. split; [intros k Hk; rewrite G by lia; auto|]. rewrite (G b) by lia.
  split; auto. split; auto.
  destruct H5 as [(? & ? & E)|[(? & ? & E)|(? & ? & E)]].
  - left. rewrite G by lia. auto.
  - right. left. rewrite G by lia. auto.
  - right. right. rewrite G by lia. auto.
Qed.
Lemma shape_sym x x' : same_shape x x' -> same_shape x' x.
Proof.
  intros [HL HS]. split; auto. intros i j Hij. unfold zlen in *. rewrite <- HL in Hij. symmetry. apply HS. auto.
Qed.
Lemma shape_rep x x' s i : same_shape x x' -> rep x s i <-> rep x' s i.
Proof. intros H. split; apply shape_rep_one; auto. apply shape_sym; auto. Qed.

Lemma shape_extrema x x' t e e' : same_shape x x' -> length t = length x ->
  find_extrema Simple t x = Ok e -> find_extrema Simple t x' = Ok e' ->
  max_pos e = max_pos e' /\ min_pos e = min_pos e'.
Proof.
  intros HS Ht E E'. pose proof HS as [HL _].
  destruct (find_extrema_simple_spec t x Ht) as (f & M & m & F & F1 & _ & F2 & _ & _ & I1 & I2 & R1 & R2).
  destruct (find_extrema_simple_spec t x' ltac:(lia)) as (f' & M' & m' & F' & F1' & _ & F2' & _ & _ & I1' & I2' & R1' & R2').
  change (find_extrema Simple t x) with (find_extrema_simple t x) in E. change (find_extrema Simple t x') with (find_extrema_simple t x') in E'.
  rewrite F in E. rewrite F' in E'. apply ok_inv in E, E'. subst f f'.
  rewrite F1, F2, F1', F2'.
  rewrite (zincreasing_unique M M'), (zincreasing_unique m m'); auto.
  - intros i. rewrite R2, R2'. apply shape_rep; auto.
  - intros i. rewrite R1, R1'. apply shape_rep; auto.
Qed.

Lemma near_zeros e0 x x' d t e e' : close e0 x x' -> away e0 x -> length t = length x ->
  find_extrema d t x = Ok e -> find_extrema d t x' = Ok e' -> indzer e = indzer e'.
Proof.
  intros [HL HC] HA Ht E E'.
  destruct (any_zeros d t x e Ht E) as (I & Z). destruct (any_zeros d t x' e' ltac:(lia) E') as (I' & Z').
  apply zincreasing_unique; auto. intros i. rewrite Z, Z'.
  assert (HZ : zlen x = zlen x') by (unfold zlen; lia).
  assert (S : forall j, 0 <= j < zlen x -> (0 < sample x j /\ 0 < sample x' j)%Qc \/ (sample x j < 0 /\ sample x' j < 0)%Qc).
  { intros j Hj. destruct (HC j) as [C1 C2]. assert (P0 : (0 <= e0)%Qc) by qclra. destruct (HA j Hj) as [H|H]; [left|right]; split; qclra. }
  assert (N : forall a b, ~ zero_run x a b).
  { intros a b (H1 & H2 & H3 & _). specialize (H3 a ltac:(lia)). destruct (S a ltac:(unfold zlen; lia)) as [[? ?]|[? ?]]; qclra. }
  assert (N' : forall a b, ~ zero_run x' a b).
  { intros a b (H1 & H2 & H3 & _). specialize (H3 a ltac:(lia)). destruct (S a ltac:(unfold zlen in *; lia)) as [[? ?]|[? ?]]; qclra. }
  rewrite <- HZ. split; (intros [(Hr & Ho)|(a & b & Hz & _)]; [left; split; auto|exfalso; first [exact (N _ _ Hz) | exact (N' _ _ Hz)]]).
  - destruct (S i ltac:(lia)) as [[? ?]|[? ?]], (S (i + 1) ltac:(lia)) as [[? ?]|[? ?]]; unfold opposite in *; destruct Ho as [[? ?]|[? ?]]; auto; exfalso; qclra.
  - destruct (S i ltac:(lia)) as [[? ?]|[? ?]], (S (i + 1) ltac:(lia)) as [[? ?]|[? ?]]; unfold opposite in *; destruct Ho as [[? ?]|[? ?]]; auto; exfalso; qclra.
Qed.

(** ** The same plan of knots *)
Lemma shape_left nb x x' M m : same_shape x x' ->
  (forall i, In i M -> 0 <= i < zlen x) -> (forall i, In i m -> 0 <= i < zlen x) -> M <> [] -> m <> [] ->
  left_plan nb x M m = left_plan nb x' M m.
Proof.
  intros [HL HS] HM Hm NM Nm. unfold left_plan.
  assert (G : forall i j, 0 <= i < zlen x -> (j = 0 \/ i = 0) -> 0 <= j < zlen x ->
     (if Qclt_le_dec (sample x i) (sample x j) then true else false) = (if Qclt_le_dec (sample x' i) (sample x' j) then true else false)).
  { intros i j Hi H0 Hj. destruct (Z.eq_dec i j) as [->|N].
    - destruct (Qclt_le_dec (sample x j) (sample x j)), (Qclt_le_dec (sample x' j) (sample x' j)); auto; exfalso; qclra.
    - pose proof (HS i j ltac:(unfold compared; lia)) as H.
      destruct (Qclt_le_dec (sample x i) (sample x j)) as [Q|Q], (Qclt_le_dec (sample x' i) (sample x' j)) as [Q'|Q']; auto; exfalso.
      + apply H in Q. qclra.
      + apply H in Q'. qclra. }
  assert (HM0 := HM _ (hd_In M NM)). assert (Hm0 := Hm _ (hd_In m Nm)).
  rewrite (G (hd 0 m) 0), (G 0 (hd 0 M)) by (auto; lia). reflexivity.
Qed.

Lemma shape_rev x x' : same_shape x x' -> same_shape (rev x) (rev x').
Proof.
  intros [HL HS]. split; [rewrite !rev_length; auto|]. unfold zlen in *. rewrite rev_length. intros i j (H1 & H2 & H3 & H4).
  assert (S : forall y i, length y = length x -> 0 <= i < Z.of_nat (length x) -> sample (rev y) i = sample y (Z.of_nat (length x) - 1 - i)).
  { intros y k Ly Hk. unfold sample. rewrite rev_nth by lia. f_equal. lia. }
  rewrite !S by (auto; lia). apply HS. unfold compared. lia.
Qed.

Lemma backwards_In n l i : In i (backwards n l) <-> In (n - 1 - i) l.
Proof.
  unfold backwards. rewrite <- in_rev, in_map_iff. split.
  - intros (k & <- & Hk). replace (n - 1 - (n - 1 - k)) with k by lia. auto.
  - intros H. exists (n - 1 - i). split; auto. lia.
Qed.
Lemma shape_right nb x x' M m : same_shape x x' ->
  (forall i, In i M -> 0 <= i < zlen x) -> (forall i, In i m -> 0 <= i < zlen x) -> M <> [] -> m <> [] ->
  right_plan nb x M m = right_plan nb x' M m.
Proof.
  intros HS HM Hm NM Nm. unfold right_plan. pose proof HS as [HL _]. rewrite <- HL. cbv zeta.
  rewrite (shape_left nb (rev x) (rev x')); auto.
  - apply shape_rev; auto.
  - intros i Hi. apply backwards_In, HM in Hi. unfold zlen in *. rewrite rev_length. lia.
  - intros i Hi. apply backwards_In, Hm in Hi. unfold zlen in *. rewrite rev_length. lia.
  - unfold backwards. intros C. apply (f_equal (@length Z)) in C. rewrite rev_length, map_length in C. destruct M; [auto|discriminate].
  - unfold backwards. intros C. apply (f_equal (@length Z)) in C. rewrite rev_length, map_length in C. destruct m; [auto|discriminate].
Qed.

(** Knots at the same places, with the values of the same samples. *)
Definition matched (x x' : list Qc) (p q : pt) : Prop := fst p = fst q /\ exists i, snd p = sample x i /\ snd q = sample x' i.

Lemma increasing_positions (P Q : list Qc) : increasing P -> increasing Q -> (forall p, In p P <-> In p Q) -> P = Q.
Proof.
  intros HP HQ H.
  assert (G : map (fun u : Qc => (u, 0%Qc)) P = map (fun u : Qc => (u, 0%Qc)) Q).
  { apply increasing_unique; try (rewrite map_map; cbn [fst]; rewrite map_id; auto).
    intros p. rewrite !in_map_iff. split; intros (u & <- & Hu); exists u; split; auto; apply H; auto. }
  apply (f_equal (map fst)) in G. rewrite !map_map in G. cbn [fst] in G. rewrite !map_id in G. auto.
Qed.

Lemma planned_matched x x' M cl L cr R P P' :
  increasing (map fst P) -> (forall p, In p P <-> planned x M cl L cr R p) ->
  increasing (map fst P') -> (forall p, In p P' <-> planned x' M cl L cr R p) ->
  Forall2 (matched x x') P P'.
Proof.
  intros HI HP HI' HP'.
  assert (EF : map fst P = map fst P').
  { apply increasing_positions; auto. intros u. rewrite !in_map_iff. split; intros (p & <- & Hp).
    - apply HP in Hp as [(i & Hi & ->)|[(i & Hi & ->)|(i & Hi & ->)]]; cbn [fst]; eexists (_, sample x' i); (split; [reflexivity|]); apply HP'; unfold planned; eauto.
    - apply HP' in Hp as [(i & Hi & ->)|[(i & Hi & ->)|(i & Hi & ->)]]; cbn [fst]; eexists (_, sample x i); (split; [reflexivity|]); apply HP; unfold planned; eauto. }
  assert (G : forall p q, In p P -> In q P' -> fst p = fst q -> matched x x' p q).
  { intros p q Hp Hq E. split; auto.
    apply HP in Hp as [(i & Hi & ->)|[(i & Hi & ->)|(i & Hi & ->)]]; exists i; cbn [fst snd] in *; (split; [reflexivity|]).
    - assert (K : In (Q2Qc (inject_Z i), sample x' i) P') by (apply HP'; unfold planned; eauto).
      rewrite (fst_unique P' q _ HI' Hq K); auto.
    - assert (K : In (Q2Qc (inject_Z (2 * cl - i)), sample x' i) P') by (apply HP'; unfold planned; eauto).
      rewrite (fst_unique P' q _ HI' Hq K); auto.
    - assert (K : In (Q2Qc (inject_Z (2 * cr - i)), sample x' i) P') by (apply HP'; unfold planned; eauto).
      rewrite (fst_unique P' q _ HI' Hq K); auto. }
  clear - EF G. revert P' EF G. induction P as [|p P IH]; intros [|q P'] EF G; try discriminate; constructor.
  - apply G; [left|left|]; auto. injection EF; auto.
  - apply IH; [injection EF; auto|]. intros a b Ha Hb. apply G; right; auto.
Qed.

(** ** Straight lines *)
Lemma seg_near e x0 y0 x1 y1 y0' y1' u : (x0 < x1)%Qc -> (x0 <= u)%Qc -> (u <= x1)%Qc -> within e y0 y0' -> within e y1 y1' ->
  within e (seg x0 y0 x1 y1 u) (seg x0 y0' x1 y1' u).
Proof.
  intros Hx U0 U1 [A1 A2] [B1 B2]. unfold seg.
  set (t := ((u - x0) / (x1 - x0))%Qc).
  assert (T : (0 <= t)%Qc /\ (t <= 1)%Qc).
  { assert (D : (0 < x1 - x0)%Qc) by qclra. unfold t. split.
    - apply (Qcmult_lt_0_le_reg_r _ _ (x1 - x0)%Qc D). unfold Qcdiv. rewrite <- Qcmult_assoc, Qcmult_inv_l by (intros C; rewrite C in D; qclra).
      rewrite Qcmult_0_l, Qcmult_1_r. qclra.
    - apply (Qcmult_lt_0_le_reg_r _ _ (x1 - x0)%Qc D). unfold Qcdiv. rewrite <- Qcmult_assoc, Qcmult_inv_l by (intros C; rewrite C in D; qclra).
      rewrite Qcmult_1_l, Qcmult_1_r. qclra. }
  clearbody t. destruct T as [T0 T1].
  pose proof (mul_nonneg t (y1 - y1' + e) T0 ltac:(qclra)) as M1. pose proof (mul_nonneg t (y1' - y1 + e) T0 ltac:(qclra)) as M2.
  pose proof (mul_nonneg (1 - t) (y0 - y0' + e) ltac:(qclra) ltac:(qclra)) as M3. pose proof (mul_nonneg (1 - t) (y0' - y0 + e) ltac:(qclra) ltac:(qclra)) as M4.
  assert (I1 : (t * (y1 - y1' + e) + (1 - t) * (y0 - y0' + e) = (y0 + t * (y1 - y0)) - (y0' + t * (y1' - y0')) + e)%Qc) by ring.
  assert (I2 : (t * (y1' - y1 + e) + (1 - t) * (y0' - y0 + e) = (y0' + t * (y1' - y0')) - (y0 + t * (y1 - y0)) + e)%Qc) by ring.
  split; qclra.
Qed.

Lemma lin_near e x x' P P' u v v' : (forall i, within e (sample x i) (sample x' i)) -> increasing (map fst P) ->
  Forall2 (matched x x') P P' -> lin_at P u = Ok v -> lin_at P' u = Ok v' -> within e v v'.
Proof.
  intros HC HI HF E E'. apply lin_at_seg in E as (a & x0 & y0 & x1 & y1 & b & -> & U0 & U1 & ->).
  apply Forall2_app_inv_l in HF as (a' & r & Ha & Hr & ->). inversion Hr as [|? [x0' y0'] ? r1 M0 Hr1]; subst. inversion Hr1 as [|? [x1' y1'] ? b' M1 Hb]; subst.
  destruct M0 as (F0 & i0 & G0 & G0'), M1 as (F1 & i1 & G1 & G1'). cbn [fst snd] in *. subst x0' x1'.
  assert (Hx : (x0 < x1)%Qc).
  { apply (proj1 (increasing_pair _) HI (map fst a) _ _ (map fst b)). rewrite map_app. reflexivity. }
  assert (EF : map fst (a ++ (x0, y0) :: (x1, y1) :: b) = map fst (a' ++ (x0, y0') :: (x1, y1') :: b')).
  { assert (Q : forall A B, Forall2 (matched x x') A B -> map fst A = map fst B).
    { intros A B H. induction H as [|p q A B [Hf _] _ IH]; cbn [map]; congruence. }
    rewrite !map_app. cbn [map fst]. rewrite (Q a a'), (Q b b') by auto. reflexivity. }
  rewrite EF in HI. rewrite seg_lin_at in E'; auto. apply ok_inv in E'. subst v'.
  apply seg_near; auto; subst; apply HC.
Qed.

(** ** Sifting *)
Lemma both_kinds x M m : zincreasing M -> zincreasing m -> (forall i, In i M <-> rep x 1 i) -> (forall i, In i m <-> rep x (-1) i) ->
  3 <= zlen M + zlen m -> M <> [] /\ m <> [].
Proof.
  intros IM Im RM Rm H3. unfold zlen in H3. split; intros ->; cbn [length] in H3.
  - destruct m as [|i [|j m]]; cbn [length] in H3; try lia.
    assert (Hij : i < j) by (apply Im; left; auto).
    destruct (alternate x (-1) i j (or_intror eq_refl)) as (k & Hk & _); auto; try (apply Rm; cbn; auto). apply (RM k). exact Hk.
  - destruct M as [|i [|j M]]; cbn [length] in H3; try lia.
    assert (Hij : i < j) by (apply IM; left; auto).
    destruct (alternate x 1 i j (or_introl eq_refl)) as (k & Hk & _); auto; try (apply RM; cbn; auto). apply (Rm k). exact Hk.
Qed.

Lemma points_near e k kind n x x' P P' M M' cl cr cl' cr' v v' : k = Linear \/ k = Slinear -> parse_kind kind = Some k ->
  (forall i, within e (sample x i) (sample x' i)) ->
  env_ok n x M cl cr P -> env_ok n x' M' cl' cr' P' -> Forall2 (matched x x') P P' ->
  spline_points scipy_spl kind (tz n) P = Ok v -> spline_points scipy_spl kind (tz n) P' = Ok v' ->
  forall i, 0 <= i < Z.of_nat n -> within e (sample v i) (sample v' i).
Proof.
  intros Hk K HC HE HE' HF E E' i Hi.
  pose proof (window_all _ _ _ _ _ _ HE) as HW. pose proof (window_all _ _ _ _ _ _ HE') as HW'.
  pose proof (env_inc _ _ _ _ _ _ HE) as HI.
  unfold spline_points in E, E'. rewrite HW in E. rewrite HW' in E'. cbn [bind] in E, E'. rewrite K in E, E'.
  assert (E0 : mapM (lin_at P) (tz n) = Ok v) by (destruct Hk as [->| ->]; exact E).
  assert (E0' : mapM (lin_at P') (tz n) = Ok v') by (destruct Hk as [->| ->]; exact E').
  pose proof (tz_nth n i Hi) as Ht.
  destruct (mapM_nth _ _ _ E0 _ _ Ht) as (w & G1 & G2). destruct (mapM_nth _ _ _ E0' _ _ Ht) as (w' & G1' & G2').
  unfold sample. rewrite (nth_error_nth _ _ _ G1), (nth_error_nth _ _ _ G1'). eapply lin_near; eauto.
Qed.

Lemma mean_near e a b c a' b' c' : within e a a' -> within e b b' -> within e c c' ->
  within (e + e) (a - (b + c) / Qc_ofZ 2) (a' - (b' + c') / Qc_ofZ 2).
Proof.
  intros [A1 A2] [B1 B2] [C1 C2].
  assert (H2 : forall u, (u / Qc_ofZ 2 + u / Qc_ofZ 2 = u)%Qc).
  { intros u. replace (Qc_ofZ 2) with (1 + 1)%Qc by (apply Qc_is_canon; reflexivity). field. intros C. vm_compute in C. discriminate C. }
  pose proof (H2 (b + c)%Qc) as G. pose proof (H2 (b' + c')%Qc) as G'.
  set (m := ((b + c) / Qc_ofZ 2)%Qc) in *. set (m' := ((b' + c') / Qc_ofZ 2)%Qc) in *. clearbody m m'.
  split; qclra.
Qed.

Lemma sift_near e k c x x' y y' : extrema_detection c = Simple -> 1 <= nbsym c ->
  k = Linear \/ k = Slinear -> parse_kind (spline_kind c) = Some k ->
  close e x x' -> same_shape x x' ->
  one_sift scipy_spl c (arange (length x)) x y -> one_sift scipy_spl c (arange (length x')) x' y' ->
  close (e + e)%Qc y y'.
Proof.
  intros D N Hk K [HL HC] HS H1 H1'.
  destruct (sift_at_extrema _ kinds_pass _ _ _ D N H1) as (up & lo & P & Q & E & Ly & G & _).
  destruct (sift_at_extrema _ kinds_pass _ _ _ D N H1') as (up' & lo' & P' & Q' & E' & Ly' & G' & _).
  assert (He : (0 <= e)%Qc) by (destruct (HC 0) as [C1 C2]; qclra).
  assert (HZ : zlen x = zlen x') by (unfold zlen; lia).
  assert (MAIN : forall i, 0 <= i < zlen x -> within (e + e) (sample y i) (sample y' i)).
  { intros i Hi. rewrite G, G' by lia. enough (within e (sample up i) (sample up' i) /\ within e (sample lo i) (sample lo' i)) as [W1 W2] by (apply mean_near; auto).
    clear G G' Ly Ly' H1 H1'.
    rewrite <- HL in E'. rewrite arange_tz in E, E'. unfold extract_max_min_spline in E, E'. rewrite D in E, E'.
    destruct (detect_prepare x (nbsym c) N) as (f & M & m & Ef & E1 & E2 & R1 & R2 & HP).
    destruct (detect_prepare x' (nbsym c) N) as (f' & M' & m' & Ef' & E1' & E2' & R1' & R2' & HP'). rewrite <- HL in Ef', HP'.
    destruct (shape_extrema x x' (tz (length x)) f f' HS (tz_length _) Ef Ef') as (X1 & X2).
    assert (M = M') by (apply map_ofZ_inj; congruence). assert (m = m') by (apply map_ofZ_inj; congruence). subst M' m'.
    rewrite Ef in E. rewrite Ef' in E'. cbn [bind] in E, E'. rewrite E1, E2, !zlen_map in E. rewrite E1', E2', !zlen_map in E'.
    destruct (Z.ltb_spec (zlen M + zlen m) 3) as [C|C]; [discriminate E|].
    destruct (HP ltac:(lia)) as (P0 & Q0 & cl & cr & EP & O1 & O2 & _). rewrite EP in E. cbn [bind] in E.
    apply bind_ok in E as (u & F3 & E). apply bind_ok in E as (w & F4 & E). injection E as -> -> -> ->.
    destruct (HP' ltac:(lia)) as (P0' & Q0' & cl' & cr' & EP' & O1' & O2' & _). rewrite EP' in E'. cbn [bind] in E'.
    apply bind_ok in E' as (u' & F3' & E'). apply bind_ok in E' as (w' & F4' & E'). injection E' as -> -> -> ->.
    assert (B : M <> [] /\ m <> []).
    { destruct (find_extrema_simple_spec (tz (length x)) x (tz_length _)) as (g & A & a & Eg & A1 & _ & A2 & _ & _ & J1 & J2 & J3 & J4).
      change (find_extrema Simple (tz (length x)) x) with (find_extrema_simple (tz (length x)) x) in Ef. rewrite Ef in Eg. apply ok_inv in Eg. subst g.
      assert (S1 : M = A). { apply map_ofZ_inj. rewrite <- E1, A1. apply map_sample_tz. intros j Hj. apply J3, rep_range in Hj. unfold zlen in Hj. lia. }
      assert (S2 : m = a). { apply map_ofZ_inj. rewrite <- E2, A2. apply map_sample_tz. intros j Hj. apply J4, rep_range in Hj. unfold zlen in Hj. lia. }
      apply (both_kinds x); auto; subst; auto. }
    destruct B as [BM Bm].
    rewrite <- arange_tz in Ef, Ef', EP, EP'.
    destruct (mirroring_exact x (nbsym c) f N Ef) as (M1 & m1 & P1 & Q1 & Y1 & Y2 & Y3 & Y4); [rewrite E1; destruct M; [auto|discriminate]|rewrite E2; destruct m; [auto|discriminate]|].
    assert (M1 = M) by (apply map_ofZ_inj; congruence). assert (m1 = m) by (apply map_ofZ_inj; congruence). subst M1 m1.
    rewrite EP in Y3. apply ok_inv in Y3. apply pair_inv in Y3 as [? ?]. subst P1 Q1.
    pose proof HL as HL2. rewrite HL in Ef', EP'.
    destruct (mirroring_exact x' (nbsym c) f' N Ef') as (M1 & m1 & P1 & Q1 & Y1' & Y2' & Y3' & Y4'); [rewrite E1'; destruct M; [auto|discriminate]|rewrite E2'; destruct m; [auto|discriminate]|].
    assert (M1 = M) by (apply map_ofZ_inj; congruence). assert (m1 = m) by (apply map_ofZ_inj; congruence). subst M1 m1.
    rewrite EP' in Y3'. apply ok_inv in Y3'. apply pair_inv in Y3' as [? ?]. subst P1 Q1.
    assert (RM : forall j, In j M -> 0 <= j < zlen x) by (intros j Hj; apply R1, rep_range in Hj; lia).
    assert (Rm : forall j, In j m -> 0 <= j < zlen x) by (intros j Hj; apply R2, rep_range in Hj; lia).
    rewrite <- (shape_left (Z.to_nat (nbsym c)) x x' M m HS RM Rm BM Bm), <- (shape_right (Z.to_nat (nbsym c)) x x' M m HS RM Rm BM Bm) in Y4'.
    destruct (left_plan (Z.to_nat (nbsym c)) x M m) as [[c1 LM] Lm]. destruct (right_plan (Z.to_nat (nbsym c)) x M m) as [[c2 RMM] Rmm].
    destruct Y4 as [[V1 V2] [V3 V4]], Y4' as [[V1' V2'] [V3' V4']].
    pose proof (planned_matched _ _ _ _ _ _ _ _ _ V1 V2 V1' V2') as T1. pose proof (planned_matched _ _ _ _ _ _ _ _ _ V3 V4 V3' V4') as T2.
    unfold zlen in Hi. split.
    - exact (points_near e k (spline_kind c) _ _ _ _ _ _ _ _ _ _ _ _ _ Hk K HC O1 O1' T1 F3 F3' i Hi).
    - exact (points_near e k (spline_kind c) _ _ _ _ _ _ _ _ _ _ _ _ _ Hk K HC O2 O2' T2 F4 F4' i Hi). }
  split; [congruence|]. intros i.
  destruct (Z_lt_le_dec i (zlen x)) as [Hi|Hi].
  - destruct (Z_lt_le_dec i 0) as [Hi'|Hi']; [|apply MAIN; lia].
    assert (G0 : forall z, sample z i = sample z 0) by (intros z; unfold sample; replace (Z.to_nat i) with 0%nat by lia; reflexivity).
    rewrite !G0. destruct (Z_lt_le_dec 0 (zlen x)) as [H0|H0]; [apply MAIN; lia|].
    unfold sample. rewrite !nth_overflow by (unfold zlen in *; lia). split; qclra.
  - unfold sample. rewrite !nth_overflow by (unfold zlen in *; lia). split; qclra.
Qed.

Lemma robust_near k c n : forall e x x' l l', extrema_detection c = Simple -> 1 <= nbsym c ->
  k = Linear \/ k = Slinear -> parse_kind (spline_kind c) = Some k ->
  close e x x' -> robust c n e x ->
  iterates (one_sift scipy_spl c (arange (length x))) (x :: l) ->
  iterates (one_sift scipy_spl c (arange (length x'))) (x' :: l') -> length l = n -> length l' = n ->
  close (doubled n e) (last l x) (last l' x').
Proof.
  induction n as [|n IH]; intros e x x' l l' D N Hk K HC HR HI HI' Ll Ll'.
  - destruct l, l'; try discriminate. exact HC.
  - destruct l as [|y l], l' as [|y' l']; try discriminate. inversion HI as [|? ? ? H1 H2]; subst. inversion HI' as [|? ? ? H1' H2']; subst.
    cbn [robust doubled] in *. destruct HR as [HS HR].
    destruct (one_sift_mean _ _ _ _ _ H1) as (_ & _ & _ & _ & _ & _ & _ & _ & _ & _ & Ly & _).
    destruct (one_sift_mean _ _ _ _ _ H1') as (_ & _ & _ & _ & _ & _ & _ & _ & _ & _ & Ly' & _).
    assert (EL : forall (z d d' : list Qc) m, last (z :: m) d = last (z :: m) d').
    { intros z d d' m. revert z. induction m as [|w m IHm]; intros z; [reflexivity|]. apply (IHm w). }
    assert (EC : forall (z d : list Qc) m, last (z :: m) d = last m z).
    { intros z d [|w m]; [reflexivity|]. apply (EL w d z m). }
    rewrite !EC. rewrite <- Ly in H2. rewrite <- Ly' in H2'.
    apply (IH (e + e)%Qc y y' l l'); auto.
    apply (sift_near e k c x x' y y'); auto. eapply separated_shape; eauto.
Qed.

Lemma first_near k c n fuel fuel' e x x' mi mi' o o' :
  extrema_detection c = Simple -> 1 <= nbsym c -> k = Linear \/ k = Slinear -> parse_kind (spline_kind c) = Some k ->
  FIXE c = Z.of_nat n -> (0 < n)%nat -> FIXE c < MAX_ITERATION c ->
  close e x x' -> robust c n e x ->
  emd scipy_spl fuel c x None mi = Ok o -> emd scipy_spl fuel' c x' None mi' = Ok o' ->
  imfs o <> [] -> imfs o' <> [] ->
  close (doubled n e) (nth 0 (imfs o) []) (nth 0 (imfs o') []).
Proof.
  intros D N Hk K Fx Hn M1 HC HR E E' O O'.
  destruct (fixe_top _ _ _ _ _ _ _ E ltac:(lia)) as (t & Et & G).
  destruct (fixe_top _ _ _ _ _ _ _ E' ltac:(lia)) as (t' & Et' & G').
  destruct (G 0%nat) as (l & I & La & Ln). { destruct (imfs o); [congruence|cbn; lia]. }
  destruct (G' 0%nat) as (l' & I' & La' & Ln'). { destruct (imfs o'); [congruence|cbn; lia]. }
  clear G G'. apply none_time in Et; auto. apply none_time in Et'; auto. subst t t'.
  assert (Z0 : forall z : list Qc, vsub z (sum_rows (length z) []) = z).
  { intros z. change (sum_rows (length z) []) with (@vzeros Qc _ (length z)). apply vsub_zeros. }
  cbn [firstn] in I, I'. rewrite Z0 in I, I'. unfold zlen in Ln, Ln'.
  rewrite <- La, <- La'.
  assert (EL : forall (m : list (list Qc)) d d', m <> [] -> last m d = last m d').
  { intros m d d'. induction m as [|z [|w m] IHm]; intros C; [congruence|reflexivity|]. apply IHm. discriminate. }
  rewrite (EL l _ x), (EL l' _ x') by (intros ->; cbn [length] in *; lia).
  apply (robust_near k c n e x x' l l'); auto; lia.
Qed.

(** ** All components *)
Lemma close_vsub e d x x' y y' : length y = length x -> length y' = length x' -> close e x x' -> close d y y' ->
  close (e + d)%Qc (vsub x y) (vsub x' y').
Proof.
  intros L L' [HL HC] [HL2 HD]. split.
  - transitivity (length x); [apply map2_length_eq; auto|]. rewrite HL. symmetry. apply map2_length_eq. auto.
  - intros i. destruct (HC i) as [C1 C2], (HD i) as [D1 D2]. rewrite !sample_vsub by auto. split; qclra.
Qed.

Lemma part_near k c n m : forall e x x' comps comps' j, extrema_detection c = Simple -> 1 <= nbsym c ->
  k = Linear \/ k = Slinear -> parse_kind (spline_kind c) = Some k ->
  close e x x' -> robust_parts c n m e x -> peels c n x comps -> peels c n x' comps' ->
  (j < m)%nat -> (j < length comps)%nat -> (j < length comps')%nat ->
  close (part_error n j e) (nth j comps []) (nth j comps' []).
Proof.
  induction m as [|m IH]; intros e x x' comps comps' j D N Hk K HC HR HP HP' Hj L L'; [lia|].
  inversion HP as [|? l rest HI Ll HRe]; subst; cbn [length] in L; try lia.
  inversion HP' as [|? l' rest' HI' Ll' HRe']; subst; cbn [length] in L'; try lia.
  cbn [robust_parts] in HR. destruct HR as [HR HN].
  pose proof (robust_near k c (length l) e x x' l l' D N Hk K HC HR HI HI' eq_refl Ll') as FC.
  destruct j as [|j]; cbn [nth part_error]; [exact FC|].
  apply (IH (e + doubled (length l) e)%Qc (vsub x (last l x)) (vsub x' (last l' x')) rest rest' j); auto; try lia.
  apply close_vsub; auto; eapply iterates_length; eauto.
Qed.

Lemma component_near k c n m fuel fuel' e x x' mi mi' o o' j :
  extrema_detection c = Simple -> 1 <= nbsym c -> k = Linear \/ k = Slinear -> parse_kind (spline_kind c) = Some k ->
  FIXE c = Z.of_nat n -> (0 < n)%nat -> FIXE c < MAX_ITERATION c ->
  close e x x' -> robust_parts c n m e x ->
  emd scipy_spl fuel c x None mi = Ok o -> emd scipy_spl fuel' c x' None mi' = Ok o' ->
  (j < m)%nat -> (j < length (imfs o))%nat -> (j < length (imfs o'))%nat ->
  close (part_error n j e) (nth j (imfs o) []) (nth j (imfs o') []).
Proof.
  intros D N Hk K Fx Hn M1 HC HR E E' Hj O O'.
  exact (part_near k c n m e x x' (imfs o) (imfs o') j D N Hk K HC HR
    (fixe_peels c n fuel x mi o D Fx Hn M1 E) (fixe_peels c n fuel' x' mi' o' D Fx Hn M1 E') Hj O O').
Qed.

Lemma doubled_closed n : forall e, doubled n e = (Qc_ofZ (2 ^ Z.of_nat n) * e)%Qc.
Proof.
  induction n as [|n IH]; intros e; cbn [doubled].
  - change (Qc_ofZ (2 ^ Z.of_nat 0)) with 1%Qc. ring.
  - rewrite IH, Nat2Z.inj_succ, Z.pow_succ_r by lia. rewrite Qc_ofZ_mul. change (Qc_ofZ 2) with (1 + 1)%Qc. ring.
Qed.
Lemma part_error_closed n j : forall e, part_error n j e = (Qc_ofZ (2 ^ Z.of_nat n * (2 ^ Z.of_nat n + 1) ^ Z.of_nat j) * e)%Qc.
Proof.
  induction j as [|j IH]; intros e; cbn [part_error].
  - rewrite doubled_closed. change (Z.of_nat 0) with 0. rewrite Z.pow_0_r, Z.mul_1_r. reflexivity.
  - rewrite IH, doubled_closed, Nat2Z.inj_succ, Z.pow_succ_r by lia. rewrite !Qc_ofZ_mul, Qc_ofZ_add. change (Qc_ofZ 1) with 1%Qc. ring.
Qed.
