(** * KindsQuad: the quadratic spline of interp1d (exact arithmetic). *)
From Verif Require Import PyFacts QcFacts Emd Spec Demo EmdProofs EmdSimple ReverseLin RevSpec SymSpec Envelope Compact CompactSpec CompactProofs.
From Verif Require Import Runs EmdSym Kinds KindsSpec KindsProofs KindsRules KindsMono KindsCubic.
From Coq Require Import ZifyBool ZifyNat QArith Qcanon Lia.
Open Scope Z_scope.

Lemma four_qc : Qc_ofZ 4 = (1 + 1 + 1 + 1)%Qc. Proof. apply Qc_is_canon. reflexivity. Qed.
(** ** One gap *)
Lemma quad_left x0 y0 d0 x1 y1 d1 : (x0 < x1)%Qc -> quad_at x0 y0 d0 x1 y1 d1 x0 = y0.
Proof.
  intros Hx. unfold quad_at. num_qc. rewrite two_qc. replace ((1 + 1) * (x0 - x0))%Qc with 0%Qc by ring.
  destruct (Qc_leb 0 (x1 - x0)) eqn:E; qc_bool; [unfold Qcdiv; ring|qclra].
Qed.
Lemma quad_right x0 y0 d0 x1 y1 d1 : (x0 < x1)%Qc -> quad_at x0 y0 d0 x1 y1 d1 x1 = y1.
Proof.
  intros Hx. unfold quad_at. num_qc. rewrite two_qc. destruct (Qc_leb _ (x1 - x0)) eqn:E; qc_bool.
  - exfalso. assert (G : ((1 + 1) * (x1 - x0) = (x1 - x0) + (x1 - x0))%Qc) by ring. rewrite G in E. qclra.
  - unfold Qcdiv. ring.
Qed.
Lemma quad_affine a b x0 y0 d0 x1 y1 d1 u :
  quad_at x0 (a * y0 + b)%Qc (a * d0)%Qc x1 (a * y1 + b)%Qc (a * d1)%Qc u = (a * quad_at x0 y0 d0 x1 y1 d1 u + b)%Qc.
Proof. unfold quad_at. num_qc. rewrite two_qc, three_qc, four_qc. destruct (Qc_leb _ _); unfold Qcdiv; ring. Qed.
(** The two halves agree in the middle. *)
Lemma quad_half x0 y0 d0 x1 y1 d1 u : (x0 < x1)%Qc -> (u - x0 + (u - x0) = x1 - x0)%Qc ->
  (y0 + (u - x0) * (d0 + (u - x0) * (((1 + 1 + 1 + 1) * ((y1 - y0) / (x1 - x0)) - (1 + 1 + 1) * d0 - d1) / ((1 + 1) * (x1 - x0)))) =
   y1 + (u - x1) * (d1 + (u - x1) * ((d0 + (1 + 1 + 1) * d1 - (1 + 1 + 1 + 1) * ((y1 - y0) / (x1 - x0))) / ((1 + 1) * (x1 - x0)))))%Qc.
Proof.
  intros Hx Hu. set (g := (u - x0)%Qc) in *. assert (E1 : (x1 - x0 = g + g)%Qc) by auto. assert (E2 : (u - x1 = - g)%Qc) by (unfold g in *; qclra).
  rewrite E1, E2. assert (G : g <> 0%Qc) by (intros C; rewrite C in E1; qclra). clearbody g. field. split; [intros C; apply G; qclra|discriminate].
Qed.
Lemma quad_turn L x0 y0 d0 x1 y1 d1 u : (x0 < x1)%Qc ->
  quad_at (L - x1)%Qc y1 (- d1)%Qc (L - x0)%Qc y0 (- d0)%Qc (L - u)%Qc = quad_at x0 y0 d0 x1 y1 d1 u.
Proof.
  intros Hx. unfold quad_at. num_qc. rewrite two_qc, three_qc, four_qc. cbv zeta.
  assert (D : forall z : Qc, ((1 + 1) * z = z + z)%Qc) by (intros; ring).
  rewrite (D (u - x0)%Qc), (D (L - u - (L - x1))%Qc).
  replace (L - u - (L - x1))%Qc with (x1 - u)%Qc by ring. replace (L - u - (L - x0))%Qc with (x0 - u)%Qc by ring.
  replace (L - x0 - (L - x1))%Qc with (x1 - x0)%Qc by ring.
  destruct (Qc_leb (u - x0 + (u - x0)) (x1 - x0)) eqn:E1, (Qc_leb (x1 - u + (x1 - u)) (x1 - x0)) eqn:E2; qc_bool.
  - rewrite quad_half by (auto; qclra). unfold Qcdiv. ring.
  - unfold Qcdiv. ring.
  - unfold Qcdiv. ring.
  - exfalso. qclra.
Qed.

(** ** The pieces put together *)
Lemma qpoly_seg ks u v : qpoly ks u = Ok v ->
  exists a x0 y0 d0 x1 y1 d1 b, ks = a ++ (x0, y0, d0) :: (x1, y1, d1) :: b /\ (x0 <= u)%Qc /\ (u <= x1)%Qc /\
    v = quad_at x0 y0 d0 x1 y1 d1 u.
Proof.
  induction ks as [|[[x0 y0] d0] ks IH]; [discriminate|]. cbn [qpoly]. destruct ks as [|[[x1 y1] d1] b]; [discriminate|].
  num_qc. destruct (Qc_ltb u x0) eqn:C0; [discriminate|]. destruct (Qc_leb u x1) eqn:C1.
  - intros E. apply ok_inv in E. subst v. qc_bool. exists [], x0, y0, d0, x1, y1, d1, b. repeat split; auto; qclra.
  - intros E. destruct (IH E) as (a & X0 & Y0 & D0 & X1 & Y1 & D1 & b' & -> & H1 & H2 & ->).
    exists ((x0, y0, d0) :: a), X0, Y0, D0, X1, Y1, D1, b'. auto.
Qed.
Lemma seg_qpoly u x0 y0 d0 x1 y1 d1 b a :
  increasing (map fst (map fst (a ++ (x0, y0, d0) :: (x1, y1, d1) :: b))) -> (x0 <= u)%Qc -> (u <= x1)%Qc ->
  qpoly (a ++ (x0, y0, d0) :: (x1, y1, d1) :: b) u = Ok (quad_at x0 y0 d0 x1 y1 d1 u).
Proof.
  induction a as [|[[p w] e] a IH]; intros I H0 H1.
  - cbn [app qpoly]. num_qc. destruct (Qc_ltb u x0) eqn:C0; qc_bool; [qclra|].
    destruct (Qc_leb u x1) eqn:C1; qc_bool; [reflexivity|qclra].
  - cbn [app map fst] in I. pose proof (increasing_tl _ _ I) as I'. specialize (IH I' H0 H1).
    assert (Hp : (p < x0)%Qc).
    { apply (increasing_in _ _ I). rewrite !map_app. apply in_or_app. right. left. reflexivity. }
    change (((p, w, e) :: a) ++ (x0, y0, d0) :: (x1, y1, d1) :: b) with ((p, w, e) :: (a ++ (x0, y0, d0) :: (x1, y1, d1) :: b)).
    destruct a as [|[[q w'] e'] a].
    + cbn [app qpoly] in *. num_qc. destruct (Qc_ltb u p) eqn:C0; qc_bool; [qclra|].
      destruct (Qc_leb u x0) eqn:C1; qc_bool; auto.
      assert (u = x0) by qclra. subst u. rewrite quad_right, quad_left; auto. exact (increasing_hd _ _ _ I').
    + cbn [app map fst] in *. pose proof (increasing_hd _ _ _ I) as Hq.
      assert (Hq' : (q < x0)%Qc).
      { apply (increasing_in _ _ I'). rewrite !map_app. apply in_or_app. right. left. reflexivity. }
      remember (a ++ (x0, y0, d0) :: (x1, y1, d1) :: b) as R. cbn [qpoly]. num_qc.
      destruct (Qc_ltb u p) eqn:C0; qc_bool; [qclra|]. destruct (Qc_leb u q) eqn:C1; qc_bool; [qclra|]. exact IH.
Qed.

Lemma qpoly_ok ks u : increasing (map fst (map fst ks)) -> (2 <= length ks)%nat ->
  (exists p q, nth_error ks 0 = Some p /\ nth_error ks (length ks - 1) = Some q /\
               (fst (fst p) <= u)%Qc /\ (u <= fst (fst q))%Qc) ->
  exists v, qpoly ks u = Ok v.
Proof.
  induction ks as [|[[x0 y0] d0] ks IH]; intros HI HL (p & q & Ep & Eq & Hp & Hq); [simpl in HL; lia|].
  destruct ks as [|[[x1 y1] d1] ks]; [simpl in HL; lia|].
  injection Ep as <-. cbn [fst] in *. cbn [qpoly].
  destruct (nltb u x0) eqn:E0; [exfalso; num_qc; qclra|].
  destruct (nleb u x1) eqn:E1; [eauto|].
  apply IH.
  - exact (increasing_tl _ _ HI).
  - destruct ks; [|simpl; lia]. exfalso. simpl in Eq. injection Eq as <-. num_qc. cbn [fst] in Hq. qclra.
  - exists (x1, y1, d1), q. split; auto. split.
    + cbn [length] in *. replace (Datatypes.S (Datatypes.S (length ks)) - 1)%nat
        with (Datatypes.S (Datatypes.S (length ks) - 1)) in Eq by lia. exact Eq.
    + split; auto. cbn [fst]. num_qc. qclra.
Qed.

Lemma qpoly_knot ks : increasing (map fst (map fst ks)) -> forall p v, In p ks -> qpoly ks (fst (fst p)) = Ok v -> v = snd (fst p).
Proof.
  induction ks as [|[[x0 y0] d0] ks IH]; intros HI p v Hp E; [destruct Hp|].
  destruct ks as [|[[x1 y1] d1] ks]; [discriminate E|].
  pose proof (increasing_hd _ _ _ HI) as H01. cbn [fst] in H01.
  cbn [qpoly] in E. destruct (nltb (fst (fst p)) x0) eqn:E0; [discriminate E|].
  destruct (nleb (fst (fst p)) x1) eqn:E1.
  - injection E as <-. destruct Hp as [<-|[<-|Hp]]; cbn [fst snd].
    + apply quad_left; auto.
    + apply quad_right; auto.
    + exfalso. pose proof (increasing_tl _ _ HI) as H1. cbn [map fst] in H1.
      pose proof (increasing_in _ _ H1 (fst (fst p)) (in_map fst _ _ (in_map fst _ _ Hp))). num_qc. qclra.
  - destruct Hp as [<-|Hp].
    + exfalso. cbn [fst] in E1. num_qc. qclra.
    + apply (IH (increasing_tl _ _ HI)); auto.
Qed.

Section Rule.
Variable slopes : list (Qc * Qc) -> res (list Qc).
Hypothesis R : rule slopes.

Lemma qdraw_inv pts t v : qdraw slopes pts t = Ok v ->
  exists ds, slopes pts = Ok ds /\ length ds = length pts /\ increasing (map fst pts) /\ mapM (qpoly (combine pts ds)) t = Ok v.
Proof.
  unfold qdraw. destruct (strictly_up (map fst pts)) eqn:E; [|discriminate]. intros HE.
  apply bind_ok in HE as (ds & E1 & E2). exists ds. split; auto. split; [eapply rule_length; eauto|].
  split; auto. apply strictly_up_iff; auto.
Qed.
Lemma qdraw_ok pts t ds v : increasing (map fst pts) -> slopes pts = Ok ds -> mapM (qpoly (combine pts ds)) t = Ok v ->
  qdraw slopes pts t = Ok v.
Proof.
  intros HI Ed Ev. unfold qdraw. rewrite (proj2 (strictly_up_iff _) HI), Ed. exact Ev.
Qed.

Lemma qdraw_total pts t : increasing (map fst pts) -> 3 <= zlen pts ->
  (forall u, In u t -> exists p q, nth_error pts 0 = Some p /\ nth_error pts (length pts - 1) = Some q /\
                       (fst p <= u)%Qc /\ (u <= fst q)%Qc) ->
  exists v, qdraw slopes pts t = Ok v /\ length v = length t.
Proof.
  intros HI H3 Ht. destruct (rule_total _ R pts HI H3) as (ds & Ed). pose proof (rule_length _ R _ _ Ed) as Ld.
  assert (E : exists v, mapM (qpoly (combine pts ds)) t = Ok v).
  { induction t as [|u t IH]; [exists []; reflexivity|].
    destruct (qpoly_ok (combine pts ds) u) as (v & Ev).
    - rewrite combine_fst; auto.
    - rewrite combine_length, Ld. unfold zlen in H3. lia.
    - destruct (Ht u (or_introl eq_refl)) as (p & q & Ep & Eq & G1 & G2).
      rewrite combine_length, Ld, Nat.min_id.
      destruct (nth_error ds 0) as [d0|] eqn:D0; [|apply nth_error_None in D0; unfold zlen in H3; lia].
      destruct (nth_error ds (length pts - 1)) as [d1|] eqn:D1; [|apply nth_error_None in D1; unfold zlen in H3; lia].
      exists (p, d0), (q, d1). split; [apply combine_nth_error; auto|]. split; [apply combine_nth_error; auto|]. auto.
    - destruct IH as (vs & Evs); [intros w Hw; apply Ht; right; auto|].
      exists (v :: vs). cbn [mapM]. rewrite Ev. cbn [bind]. rewrite Evs. reflexivity. }
  destruct E as (v & Ev). exists v. split; [eapply qdraw_ok; eauto|]. eapply mapM_ok_length; eauto.
Qed.

Lemma qdraw_passes pts t v : qdraw slopes pts t = Ok v -> length v = length t /\
  forall i p, In p pts -> nth_error t i = Some (fst p) -> nth_error v i = Some (snd p).
Proof.
  intros E. destruct (qdraw_inv _ _ _ E) as (ds & Ed & Ld & HI & Ev). split; [eapply mapM_ok_length; eauto|].
  intros i p Hp Hi. destruct (mapM_nth _ _ _ Ev i _ Hi) as (y & Hy & Ey). rewrite Hy. f_equal.
  rewrite <- (combine_fst pts ds Ld) in Hp. apply in_map_iff in Hp as (k & <- & Hk).
  eapply qpoly_knot; eauto. rewrite combine_fst; auto.
Qed.

Lemma qpoly_affine a b ks u v : qpoly ks u = Ok v ->
  qpoly (map (fun k => (fst (fst k), a * snd (fst k) + b, a * snd k)%Qc) ks) u = Ok (a * v + b)%Qc.
Proof.
  induction ks as [|[[x0 y0] d0] ks IH]; [discriminate|]. destruct ks as [|[[x1 y1] d1] ks]; [discriminate|].
  cbn [qpoly map fst snd] in *. destruct (nltb u x0); [discriminate|]. destruct (nleb u x1); [|exact IH].
  intros E. apply ok_inv in E. subst v. f_equal. apply quad_affine.
Qed.
Lemma qdraw_affine a b pts t v : qdraw slopes pts t = Ok v ->
  qdraw slopes (map (fun p => (fst p, a * snd p + b)%Qc) pts) t = Ok (map (fun y => a * y + b)%Qc v).
Proof.
  intros E. destruct (qdraw_inv _ _ _ E) as (ds & Ed & Ld & HI & Ev).
  eapply qdraw_ok; [rewrite map_map; exact HI|apply (rule_affine _ R); eauto|].
  replace (combine (map (fun p => (fst p, a * snd p + b)%Qc) pts) (map (Qcmult a) ds))
    with (map (fun k => (fst (fst k), a * snd (fst k) + b, a * snd k)%Qc) (combine pts ds)).
  - apply (mapM_map (qpoly (combine pts ds)) _ (fun y => a * y + b)%Qc); auto. intros u y _ Hy. apply qpoly_affine. exact Hy.
  - clear. revert ds. induction pts as [|p pts IH]; intros [|d ds]; cbn; auto. f_equal. auto.
Qed.

Lemma qpoly_turn L ks u v : increasing (map fst (map fst ks)) -> qpoly ks u = Ok v -> qpoly (turned3 L ks) (L - u)%Qc = Ok v.
Proof.
  intros I E. destruct (qpoly_seg _ _ _ E) as (a & x0 & y0 & d0 & x1 & y1 & d1 & b & -> & H0 & H1 & ->).
  assert (Hx : (x0 < x1)%Qc).
  { apply (proj1 (increasing_pair _) I (map fst (map fst a)) x0 x1 (map fst (map fst b))). rewrite !map_app. reflexivity. }
  assert (I' : increasing (map fst (map fst (turned3 L (a ++ (x0, y0, d0) :: (x1, y1, d1) :: b))))).
  { replace (map fst (map fst (turned3 L (a ++ (x0, y0, d0) :: (x1, y1, d1) :: b))))
      with (map fst (turned L (map fst (a ++ (x0, y0, d0) :: (x1, y1, d1) :: b)))).
    - apply increasing_turned. exact I.
    - unfold turned, turned3. rewrite <- map_rev, !map_map. reflexivity. }
  assert (ES : turned3 L (a ++ (x0, y0, d0) :: (x1, y1, d1) :: b) =
    turned3 L b ++ ((L - x1)%Qc, y1, (- d1)%Qc) :: ((L - x0)%Qc, y0, (- d0)%Qc) :: turned3 L a).
  { unfold turned3. rewrite rev_app_distr. cbn [rev]. rewrite !map_app, <- !app_assoc. reflexivity. }
  rewrite ES in *. rewrite seg_qpoly; auto; try qclra. f_equal. apply quad_turn. auto.
Qed.
Lemma qdraw_turn L pts t v : qdraw slopes pts t = Ok v ->
  qdraw slopes (turned L pts) (map (fun u => L - u)%Qc (rev t)) = Ok (rev v).
Proof.
  intros E. destruct (qdraw_inv _ _ _ E) as (ds & Ed & Ld & HI & Ev).
  eapply qdraw_ok; [apply increasing_turned; exact HI|apply (rule_turn _ R); eauto|].
  rewrite turned3_combine by auto. assert (HI' : increasing (map fst (map fst (combine pts ds)))) by (rewrite combine_fst; auto).
  clear - Ev HI'. revert v Ev. induction t as [|u t IH]; intros v Ev; cbn [mapM rev map] in *.
  - apply ok_inv in Ev. subst v. reflexivity.
  - apply bind_ok in Ev as (y & E1 & E). apply bind_ok in E as (ys & E2 & E). apply ok_inv in E. subst v.
    rewrite map_app. cbn [rev]. apply mapM_app; auto. cbn [map mapM]. rewrite (qpoly_turn L _ u y HI' E1). reflexivity.
Qed.

End Rule.

(** ** The rows handed to the solver *)
Definition quad_rows p0 p1 r1 r0 (pts : list (Qc * Qc)) : list (Qc * Qc * Qc * Qc) :=
  row_quad_first p0 p1 :: map row_quad (triples pts) ++ [row_quad_last r1 r0].
Lemma quad_ok pts p0 p1 p2 r0 r1 r2 : ends pts p0 p1 p2 r0 r1 r2 -> quad_slopes pts = Ok (solve 0 0 (quad_rows p0 p1 r1 r0 pts)).
Proof.
  intros (l & m & E1 & E2). subst pts.
  unfold quad_slopes. cbv beta iota. rewrite E2. cbv beta iota zeta.
  rewrite tdma_solve; [|discriminate|rewrite !map_length; reflexivity|rewrite !map_length; reflexivity|rewrite !map_length; reflexivity].
  f_equal. f_equal. fold (quad_rows p0 p1 r1 r0 (p0 :: p1 :: p2 :: l)).
  set (R := quad_rows _ _ _ _ _). rewrite <- (zip4_cols R) at 5. reflexivity.
Qed.
Lemma row_quad_aff a b p q r : row_quad (aff a b p, aff a b q, aff a b r) = scale_row a (row_quad (p, q, r)).
Proof. unfold row_quad, scale_row. cbn [fst snd]. rewrite !gap_aff, !chord_aff. num_qc. f_equal. ring. Qed.
Lemma row_quad_first_aff a b p q : row_quad_first (aff a b p) (aff a b q) = scale_row a (row_quad_first p q).
Proof. unfold row_quad_first, scale_row. cbn [fst snd]. rewrite !chord_aff. num_qc. f_equal. ring. Qed.
Lemma row_quad_last_aff a b p q : row_quad_last (aff a b p) (aff a b q) = scale_row a (row_quad_last p q).
Proof. unfold row_quad_last, scale_row. cbn [fst snd]. rewrite !chord_aff. num_qc. f_equal. ring. Qed.

(** ** Positive pivots *)
Lemma row_quad_pivots d l : forall cp p q, increasing (map fst (p :: q :: l)) -> (0 < cp)%Qc ->
  ((cp < 1)%Qc \/ (cp <= 1)%Qc /\ l <> []) ->
  all_pivots cp (map row_quad (triples (p :: q :: l)) ++ [(1, 1, 0, d)%Qc]).
Proof.
  induction l as [|r l IH]; intros cp p q HI H0 H1.
  - change (triples [p; q]) with (@nil ((Qc * Qc) * (Qc * Qc) * (Qc * Qc))). cbn [map app all_pivots]. split; auto.
    destruct H1 as [H1|[_ H1]]; [|congruence]. intros C. rewrite Qcmult_1_l in C. qclra.
  - assert (H1' : (cp <= 1)%Qc) by (destruct H1 as [H1|[H1 _]]; qclra). clear H1.
    pose proof (increasing_hd _ _ _ HI) as G1. pose proof (increasing_hd _ _ _ (increasing_tl _ _ HI)) as G2. cbn [fst] in G1, G2.
    rewrite triples_cons. cbn [map app]. set (h1 := (fst q - fst p)%Qc). set (h2 := (fst r - fst q)%Qc).
    assert (P1 : (0 < h1)%Qc) by (unfold h1; qclra). assert (P2 : (0 < h2)%Qc) by (unfold h2; qclra).
    assert (PV : (h1 < (1 + 1 + 1) * (h1 + h2) - h2 * cp)%Qc).
    { pose proof (mul_nonneg h2 (1 - cp)%Qc ltac:(qclra) ltac:(qclra)) as M.
      assert (E : ((1 + 1 + 1) * (h1 + h2) - h2 * cp = h1 + h1 + h1 + h2 + h2 + h2 * (1 - cp))%Qc) by ring. rewrite E.
      set (z := (h2 * (1 - cp))%Qc) in *. clearbody z. qclra. }
    change (row_quad (p, q, r)) with (h2, (Qc_ofZ 3 * (h1 + h2))%Qc, h1, (nofZ 4 * (h2 * chord p q + h1 * chord q r))%Qc).
    cbn [all_pivots]. rewrite three_qc. split; [intros C; rewrite C in PV; qclra|].
    destruct (div_between _ _ P1 PV) as [D1 D2]. apply IH; auto. exact (increasing_tl _ _ HI).
Qed.
Lemma quad_pivots pts p0 p1 p2 r0 r1 r2 : ends pts p0 p1 p2 r0 r1 r2 -> increasing (map fst pts) -> all_pivots 0 (quad_rows p0 p1 r1 r0 pts).
Proof.
  intros (l & m & E1 & E2) HI. unfold quad_rows. change (row_quad_first p0 p1) with (0%Qc, 1%Qc, 1%Qc, snd (row_quad_first p0 p1)).
  cbn [all_pivots]. replace (1 - 0 * 0)%Qc with 1%Qc by ring. split; [discriminate|]. replace (1 / 1)%Qc with 1%Qc by reflexivity.
  change (row_quad_last r1 r0) with (1%Qc, 1%Qc, 0%Qc, snd (row_quad_last r1 r0)). rewrite E1 in HI |- *. 
  apply row_quad_pivots; auto; [reflexivity|]. right. split; [apply Qcle_refl|discriminate].
Qed.

(** ** The equations for the slopes *)
Definition qeq3 (w : knot * knot * knot) : Prop :=
  let '(P, Q, R) := w in
  let h1 := gap (fst P) (fst Q) in let h2 := gap (fst Q) (fst R) in
  (h2 * snd P + (1 + 1 + 1) * (h1 + h2) * snd Q + h1 * snd R = (1 + 1 + 1 + 1) * (h2 * chord (fst P) (fst Q) + h1 * chord (fst Q) (fst R)))%Qc.
Definition even (P Q : knot) : Prop := (snd P + snd Q = (1 + 1) * chord (fst P) (fst Q))%Qc.
Definition quad_eqs (ks : list knot) : Prop :=
  Forall qeq3 (triples ks) /\ (forall P Q l, ks = P :: Q :: l -> even P Q) /\ (forall P Q m, rev ks = Q :: P :: m -> even P Q).

Lemma qsystem_rows d P Q l :
  system (snd P) (map row_quad (triples (map fst (P :: Q :: l))) ++ [(1, 1, 0, d)%Qc]) (map snd (Q :: l)) <->
  Forall qeq3 (triples (P :: Q :: l)) /\ (snd (fst (last2 P Q l)) + snd (snd (last2 P Q l)) = d)%Qc.
Proof.
  revert P Q. induction l as [|R l IH]; intros P Q.
  - cbn. split; [intros [E _]; split; [constructor|rewrite <- E; ring]|intros [_ <-]; split; [ring|exact I]].
  - specialize (IH Q R).
    change (last2 P Q (R :: l)) with (last2 Q R l).
    change (triples (P :: Q :: R :: l)) with ((P, Q, R) :: triples (Q :: R :: l)).
    change (triples (map fst (P :: Q :: R :: l))) with ((fst P, fst Q, fst R) :: triples (map fst (Q :: R :: l))).
    rewrite Forall_cons_iff.
    change (map row_quad ((fst P, fst Q, fst R) :: triples (map fst (Q :: R :: l))) ++ [(1, 1, 0, d)%Qc])
      with (row_quad (fst P, fst Q, fst R) :: (map row_quad (triples (map fst (Q :: R :: l))) ++ [(1, 1, 0, d)%Qc])).
    remember (map row_quad (triples (map fst (Q :: R :: l))) ++ [(1, 1, 0, d)%Qc]) as rest eqn:HR.
    assert (HX : exists x y, rest = x :: y) by (rewrite HR; destruct (map row_quad _); cbn; eauto).
    destruct HX as (x & y & HX).
    assert (EQ : system (snd P) (row_quad (fst P, fst Q, fst R) :: rest) (map snd (Q :: R :: l)) <->
      qeq3 (P, Q, R) /\ system (snd Q) rest (map snd (R :: l))).
    { unfold row_quad. num_qc. cbn [system map]. rewrite HX at 1. cbn [hd]. rewrite three_qc, four_qc. unfold qeq3. tauto. }
    rewrite EQ, IH. tauto.
Qed.
Lemma qeqs_system ks P Q R l P' Q' m : ks = P :: Q :: R :: l -> rev ks = Q' :: P' :: m ->
  (system 0 (quad_rows (fst P) (fst Q) (fst P') (fst Q') (map fst ks)) (map snd ks) <-> quad_eqs ks).
Proof.
  intros E1 E2. destruct (last2_rev P Q (R :: l)) as (m' & EL). rewrite <- E1, E2 in EL. injection EL as EQ1 EQ2 _.
  unfold quad_rows, quad_eqs. rewrite E1 at 1 2 3.
  set (d := snd (row_quad_last (fst P') (fst Q'))).
  change (row_quad_last (fst P') (fst Q')) with (1%Qc, 1%Qc, 0%Qc, d).
  pose proof (qsystem_rows d P Q (R :: l)) as SR. change (last2 P Q (R :: l)) with (last2 Q R l) in SR. rewrite <- EQ1, <- EQ2 in SR.
  assert (EF : system 0 (row_quad_first (fst P) (fst Q) :: map row_quad (triples (map fst (P :: Q :: R :: l))) ++ [(1, 1, 0, d)%Qc])
     (map snd (P :: Q :: R :: l)) <-> even P Q /\ system (snd P) (map row_quad (triples (map fst (P :: Q :: R :: l))) ++ [(1, 1, 0, d)%Qc]) (map snd (Q :: R :: l))).
  { remember (map row_quad (triples (map fst (P :: Q :: R :: l))) ++ [(1, 1, 0, d)%Qc]) as rest eqn:HR.
    assert (HX : exists x y, rest = x :: y) by (rewrite HR; destruct (map row_quad _); cbn; eauto).
    destruct HX as (x & y & HX).
    unfold row_quad_first. num_qc. cbn [system map]. rewrite HX at 1. cbn [hd]. rewrite two_qc. unfold even.
    replace (0 * 0 + 1 * snd P + 1 * snd Q)%Qc with (snd P + snd Q)%Qc by ring. tauto. }
  rewrite EF, SR. clear EF SR.
  assert (GL : even P' Q' <-> (snd P' + snd Q' = d)%Qc).
  { unfold even, d, row_quad_last. num_qc. cbn [snd]. rewrite two_qc. tauto. }
  rewrite <- GL, <- E1. split.
  - intros (A1 & A2 & A3). split; [exact A2|]. split.
    + intros X Y l0 EX. rewrite E1 in EX. injection EX as <- <- _. exact A1.
    + intros X Y l0 EX. rewrite E2 in EX. injection EX as <- <- _. exact A3.
  - intros (A2 & A1 & A3). split; [exact (A1 _ _ _ E1)|]. split; [exact A2|]. exact (A3 _ _ _ E2).
Qed.
Lemma quad_len pts ds : quad_slopes pts = Ok ds -> (3 <= length pts)%nat.
Proof. intros E. destruct pts as [|p0 [|p1 [|p2 l]]]; try discriminate. cbn. lia. Qed.
Lemma quad_iff pts ds : (3 <= length pts)%nat -> increasing (map fst pts) ->
  (quad_slopes pts = Ok ds <-> length ds = length pts /\ quad_eqs (combine pts ds)).
Proof.
  intros H3 HI. destruct (ends_ex pts H3) as (p0 & p1 & p2 & r0 & r1 & r2 & HE).
  rewrite (quad_ok _ _ _ _ _ _ _ HE). pose proof (quad_pivots _ _ _ _ _ _ _ HE HI) as HP.
  assert (EX : forall x, Ok (solve 0 0 (quad_rows p0 p1 r1 r0 pts)) = Ok x <->
     system (0 - 0 * hd 0 x)%Qc (quad_rows p0 p1 r1 r0 pts) x).
  { intros x. rewrite <- solve_iff; [|discriminate|exact HP]. split; [intros E; apply ok_inv in E; auto|intros ->; auto]. }
  rewrite EX. assert (EZ : (0 - 0 * hd 0 ds = 0)%Qc) by ring. rewrite EZ.
  assert (LL : system 0 (quad_rows p0 p1 r1 r0 pts) ds -> length ds = length pts).
  { rewrite <- EZ at 1. rewrite <- EX. intros E. apply ok_inv in E. rewrite E, solve_length. unfold quad_rows.
    cbn [length]. rewrite app_length, map_length, triples_length. cbn [length]. lia. }
  assert (KEY : length ds = length pts -> (system 0 (quad_rows p0 p1 r1 r0 pts) ds <-> quad_eqs (combine pts ds))).
  { intros Ld. assert (EC : exists P Q R l, combine pts ds = P :: Q :: R :: l).
    { clear - Ld H3. destruct pts as [|x0 [|x1 [|x2 l]]], ds as [|d0 [|d1 [|d2 e]]]; cbn [length] in *; try lia. cbn [combine]. eauto. }
    destruct EC as (P & Q & R & l & EC).
    assert (ER : exists Q' P' m, rev (combine pts ds) = Q' :: P' :: m).
    { pose proof (rev_length (combine pts ds)) as RL. rewrite combine_length, Ld, Nat.min_id in RL.
      destruct (rev (combine pts ds)) as [|Q' [|P' m]]; cbn [length] in RL; try lia. eauto. }
    destruct ER as (Q' & P' & m & ER). pose proof (qeqs_system _ _ _ _ _ _ _ _ EC ER) as K.
    rewrite combine_fst, combine_snd in K by auto. rewrite <- K.
    destruct HE as (l1 & m1 & E1 & E2).
    assert (F1 := combine_fst pts ds Ld). rewrite EC, E1 in F1. cbn [map] in F1. injection F1 as -> -> _ _.
    assert (F2 := f_equal (@rev _) (combine_fst pts ds Ld)). rewrite <- map_rev, ER, E2 in F2. cbn [map] in F2. injection F2 as -> -> _.
    tauto. }
  split; [intros HS; split; [auto|apply KEY; auto]|intros [Ld HS]; apply KEY; auto].
Qed.

(** ** The rule *)
Lemma quad_eqs_turn L ks : quad_eqs ks -> quad_eqs (turned3 L ks).
Proof.
  change (turned3 L ks) with (map (turn3 L) (rev ks)).
  intros (A1 & A2 & A3). split; [|split].
  - rewrite triples_map, triples_rev, map_rev, map_map. apply Forall_rev. rewrite Forall_map.
    eapply Forall_impl; [|exact A1]. intros [[P Q] R] E. cbn [fst snd]. unfold qeq3 in *.
    cbn [turn3 fst snd]. rewrite !gap_turn, !chord_turn. apply neg_eq in E.
    transitivity (- (gap (fst Q) (fst R) * snd P + (1 + 1 + 1) * (gap (fst P) (fst Q) + gap (fst Q) (fst R)) * snd Q + gap (fst P) (fst Q) * snd R))%Qc; [ring|].
    rewrite E. ring.
  - intros P Q l E. destruct (rev ks) as [|R' [|Q' m]] eqn:ER; try discriminate E. cbn [map] in E. injection E as <- <- _.
    pose proof (A3 _ _ _ eq_refl) as G. unfold even in *. cbn [turn3 fst snd]. rewrite chord_turn. apply neg_eq in G.
    transitivity (- (snd Q' + snd R'))%Qc; [ring|]. rewrite G. ring.
  - intros P Q m E. rewrite <- map_rev, rev_involutive in E.
    destruct ks as [|P' [|Q' l]]; try discriminate E. cbn [map] in E. injection E as <- <- _.
    pose proof (A2 _ _ _ eq_refl) as G. unfold even in *. cbn [turn3 fst snd]. rewrite chord_turn. apply neg_eq in G.
    transitivity (- (snd P' + snd Q'))%Qc; [ring|]. rewrite G. ring.
Qed.
Lemma quad_rule : rule quad_slopes.
Proof.
  split.
  - intros pts ds E. pose proof (quad_len _ _ E) as H3.
    destruct (ends_ex pts H3) as (p0 & p1 & p2 & r0 & r1 & r2 & HE). rewrite (quad_ok _ _ _ _ _ _ _ HE) in E.
    apply ok_inv in E. rewrite E, solve_length. unfold quad_rows. cbn [length]. rewrite app_length, map_length, triples_length. cbn [length]. lia.
  - intros pts _ H3. unfold zlen in H3.
    destruct (ends_ex pts ltac:(lia)) as (p0 & p1 & p2 & r0 & r1 & r2 & HE). eexists. apply (quad_ok _ _ _ _ _ _ _ HE).
  - intros a b pts ds E. pose proof (quad_len _ _ E) as H3.
    change (fun p : Qc * Qc => (fst p, a * snd p + b)%Qc) with (aff a b).
    destruct (ends_ex pts H3) as (p0 & p1 & p2 & r0 & r1 & r2 & HE). rewrite (quad_ok _ _ _ _ _ _ _ HE) in E.
    apply ok_inv in E. subst ds.
    rewrite (quad_ok _ _ _ _ _ _ _ (ends_map (aff a b) _ _ _ _ _ _ _ HE)). f_equal.
    rewrite <- solve_scale. replace (a * 0)%Qc with 0%Qc by ring. f_equal. unfold quad_rows. cbn [map].
    rewrite row_quad_first_aff, map_app. cbn [map]. rewrite row_quad_last_aff. f_equal. f_equal. rewrite triples_map, !map_map.
    apply map_ext. intros [[p q] r]. apply row_quad_aff.
  - intros L pts ds HI E. pose proof (quad_len _ _ E) as H3.
    apply quad_iff in E as [Ld E]; auto. apply quad_iff.
    + unfold turned. rewrite map_length, rev_length. auto.
    + apply increasing_turned; auto.
    + split; [unfold turned; rewrite rev_length, !map_length, rev_length; auto|].
      rewrite turned3_combine by auto. apply quad_eqs_turn. exact E.
Qed.
