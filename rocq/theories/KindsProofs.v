(** * KindsProofs: curves drawn from values and slopes at the knots (exact arithmetic). *)
From Verif Require Import PyFacts QcFacts Emd Spec Demo EmdProofs EmdSimple DemoFacts ReverseLin RevSpec SymSpec Envelope.
From Verif Require Import Runs EmdSym Kinds KindsSpec.
From Coq Require Import ZifyBool ZifyNat QArith Qcanon Lia.
Open Scope Z_scope.

Lemma two_qc : Qc_ofZ 2 = (1 + 1)%Qc. Proof. apply Qc_is_canon. reflexivity. Qed.
Lemma three_qc : Qc_ofZ 3 = (1 + 1 + 1)%Qc. Proof. apply Qc_is_canon. reflexivity. Qed.

(** One piece as a polynomial. *)
Definition piece_of (x0 y0 d0 x1 y1 d1 : Qc) : piece :=
  let h := (x1 - x0)%Qc in
  let s := ((y1 - y0) / h)%Qc in
  let t := ((d0 + d1 - (1 + 1) * s) / h)%Qc in
  Piece y0 d0 ((s - d0) / h - t) (t / h).
Lemma hermite_value x0 y0 d0 x1 y1 d1 u :
  hermite_at x0 y0 d0 x1 y1 d1 u = value (piece_of x0 y0 d0 x1 y1 d1) (u - x0)%Qc.
Proof. unfold hermite_at, value, piece_of. num_qc. rewrite two_qc. cbn [k0 k1 k2 k3]. ring. Qed.
Lemma piece_left x0 y0 d0 x1 y1 d1 : value (piece_of x0 y0 d0 x1 y1 d1) 0%Qc = y0.
Proof. unfold value, piece_of. cbn [k0 k1 k2 k3]. ring. Qed.
Lemma gap_ne (x0 x1 : Qc) : (x0 < x1)%Qc -> (x1 - x0 <> 0)%Qc.
Proof. intros Hx C. qclra. Qed.
Lemma piece_right x0 y0 d0 x1 y1 d1 : (x0 < x1)%Qc -> value (piece_of x0 y0 d0 x1 y1 d1) (x1 - x0)%Qc = y1.
Proof. intros Hx. pose proof (gap_ne _ _ Hx). unfold value, piece_of. cbn [k0 k1 k2 k3]. field. auto. Qed.
Lemma piece_slope_left x0 y0 d0 x1 y1 d1 : slope (piece_of x0 y0 d0 x1 y1 d1) 0%Qc = d0.
Proof. unfold slope, piece_of. cbn [k0 k1 k2 k3]. ring. Qed.
Lemma piece_slope_right x0 y0 d0 x1 y1 d1 : (x0 < x1)%Qc -> slope (piece_of x0 y0 d0 x1 y1 d1) (x1 - x0)%Qc = d1.
Proof. intros Hx. pose proof (gap_ne _ _ Hx). unfold slope, piece_of. cbn [k0 k1 k2 k3]. field. auto. Qed.

Lemma hermite_right x0 y0 d0 x1 y1 d1 : (x0 < x1)%Qc -> hermite_at x0 y0 d0 x1 y1 d1 x1 = y1.
Proof. intros Hx. rewrite hermite_value. apply piece_right; auto. Qed.
Lemma hermite_left x0 y0 d0 x1 y1 d1 : hermite_at x0 y0 d0 x1 y1 d1 x0 = y0.
Proof. rewrite hermite_value. replace (x0 - x0)%Qc with 0%Qc by ring. apply piece_left. Qed.

(** Scaling and moving the values. *)
Lemma hermite_affine a b x0 y0 d0 x1 y1 d1 u :
  hermite_at x0 (a * y0 + b)%Qc (a * d0)%Qc x1 (a * y1 + b)%Qc (a * d1)%Qc u
  = (a * hermite_at x0 y0 d0 x1 y1 d1 u + b)%Qc.
Proof. unfold hermite_at. num_qc. rewrite two_qc. unfold Qcdiv. ring. Qed.
(** Reading the axis backwards. *)
Lemma hermite_turn L x0 y0 d0 x1 y1 d1 u : (x0 < x1)%Qc ->
  hermite_at (L - x1)%Qc y1 (- d1)%Qc (L - x0)%Qc y0 (- d0)%Qc (L - u)%Qc = hermite_at x0 y0 d0 x1 y1 d1 u.
Proof.
  intros Hx. unfold hermite_at. num_qc. rewrite two_qc. cbv zeta. field.
  repeat split; intros C; qclra.
Qed.

(** ** The pieces put together *)
Lemma ppoly_seg ks u v : ppoly ks u = Ok v ->
  exists a x0 y0 d0 x1 y1 d1 b, ks = a ++ (x0, y0, d0) :: (x1, y1, d1) :: b /\ (x0 <= u)%Qc /\ (u <= x1)%Qc /\
    v = hermite_at x0 y0 d0 x1 y1 d1 u.
Proof.
  induction ks as [|[[x0 y0] d0] ks IH]; [discriminate|]. cbn [ppoly]. destruct ks as [|[[x1 y1] d1] b]; [discriminate|].
  num_qc. destruct (Qc_ltb u x0) eqn:C0; [discriminate|]. destruct (Qc_leb u x1) eqn:C1.
  - intros E. apply ok_inv in E. subst v. qc_bool. exists [], x0, y0, d0, x1, y1, d1, b. repeat split; auto; qclra.
  - intros E. destruct (IH E) as (a & X0 & Y0 & D0 & X1 & Y1 & D1 & b' & -> & H1 & H2 & ->).
    exists ((x0, y0, d0) :: a), X0, Y0, D0, X1, Y1, D1, b'. auto.
Qed.
Lemma seg_ppoly u x0 y0 d0 x1 y1 d1 b a :
  increasing (map fst (map fst (a ++ (x0, y0, d0) :: (x1, y1, d1) :: b))) -> (x0 <= u)%Qc -> (u <= x1)%Qc ->
  ppoly (a ++ (x0, y0, d0) :: (x1, y1, d1) :: b) u = Ok (hermite_at x0 y0 d0 x1 y1 d1 u).
Proof.
  induction a as [|[[p w] e] a IH]; intros I H0 H1.
  - cbn [app ppoly]. num_qc. destruct (Qc_ltb u x0) eqn:C0; qc_bool; [qclra|].
    destruct (Qc_leb u x1) eqn:C1; qc_bool; [reflexivity|qclra].
  - cbn [app map fst] in I. pose proof (increasing_tl _ _ I) as I'. specialize (IH I' H0 H1).
    assert (Hp : (p < x0)%Qc).
    { apply (increasing_in _ _ I). rewrite !map_app. apply in_or_app. right. left. reflexivity. }
    change (((p, w, e) :: a) ++ (x0, y0, d0) :: (x1, y1, d1) :: b) with ((p, w, e) :: (a ++ (x0, y0, d0) :: (x1, y1, d1) :: b)).
    destruct a as [|[[q w'] e'] a].
    + cbn [app ppoly] in *. num_qc. destruct (Qc_ltb u p) eqn:C0; qc_bool; [qclra|].
      destruct (Qc_leb u x0) eqn:C1; qc_bool; auto.
      assert (u = x0) by qclra. subst u. rewrite hermite_right, hermite_left; auto.
    + cbn [app map fst] in *. pose proof (increasing_hd _ _ _ I) as Hq.
      assert (Hq' : (q < x0)%Qc).
      { apply (increasing_in _ _ I'). rewrite !map_app. apply in_or_app. right. left. reflexivity. }
      remember (a ++ (x0, y0, d0) :: (x1, y1, d1) :: b) as R. cbn [ppoly]. num_qc.
      destruct (Qc_ltb u p) eqn:C0; qc_bool; [qclra|]. destruct (Qc_leb u q) eqn:C1; qc_bool; [qclra|]. exact IH.
Qed.

Lemma ppoly_ok ks u : increasing (map fst (map fst ks)) -> (2 <= length ks)%nat ->
  (exists p q, nth_error ks 0 = Some p /\ nth_error ks (length ks - 1) = Some q /\
               (fst (fst p) <= u)%Qc /\ (u <= fst (fst q))%Qc) ->
  exists v, ppoly ks u = Ok v.
Proof.
  induction ks as [|[[x0 y0] d0] ks IH]; intros HI HL (p & q & Ep & Eq & Hp & Hq); [simpl in HL; lia|].
  destruct ks as [|[[x1 y1] d1] ks]; [simpl in HL; lia|].
  injection Ep as <-. cbn [fst] in *. cbn [ppoly].
  destruct (nltb u x0) eqn:E0; [exfalso; num_qc; qclra|].
  destruct (nleb u x1) eqn:E1; [eauto|].
  apply IH.
  - exact (increasing_tl _ _ HI).
  - destruct ks; [|simpl; lia]. exfalso. simpl in Eq. injection Eq as <-. num_qc. cbn [fst] in Hq. qclra.
  - exists (x1, y1, d1), q. split; auto. split.
    + cbn [length] in *. replace (Datatypes.S (Datatypes.S (length ks)) - 1)%nat
        with (Datatypes.S (Datatypes.S (length ks) - 1)) in Eq by lia. exact Eq.
    + split; auto. cbn [fst]. num_qc. qclra.
Qed.

Lemma ppoly_knot ks : increasing (map fst (map fst ks)) -> forall p v, In p ks -> ppoly ks (fst (fst p)) = Ok v -> v = snd (fst p).
Proof.
  induction ks as [|[[x0 y0] d0] ks IH]; intros HI p v Hp E; [destruct Hp|].
  destruct ks as [|[[x1 y1] d1] ks]; [discriminate E|].
  pose proof (increasing_hd _ _ _ HI) as H01. cbn [fst] in H01.
  cbn [ppoly] in E. destruct (nltb (fst (fst p)) x0) eqn:E0; [discriminate E|].
  destruct (nleb (fst (fst p)) x1) eqn:E1.
  - injection E as <-. destruct Hp as [<-|[<-|Hp]]; cbn [fst snd].
    + apply hermite_left.
    + apply hermite_right; auto.
    + exfalso. pose proof (increasing_tl _ _ HI) as H1. cbn [map fst] in H1.
      pose proof (increasing_in _ _ H1 (fst (fst p)) (in_map fst _ _ (in_map fst _ _ Hp))). num_qc. qclra.
  - destruct Hp as [<-|Hp].
    + exfalso. cbn [fst] in E1. num_qc. qclra.
    + apply (IH (increasing_tl _ _ HI)); auto.
Qed.

Lemma strictly_up_iff xs : strictly_up xs = true <-> increasing xs.
Proof.
  induction xs as [|x xs IH]; [split; auto; intros _ i Hi; cbn in Hi; lia|].
  destruct xs as [|y xs]; [split; auto; intros _ i Hi; cbn in Hi; lia|].
  cbn [strictly_up]. rewrite andb_true_iff. split.
  - intros [H1 H2] i Hi. destruct i as [|i]; [cbn; num_qc; qc_bool; auto|]. apply IH in H2. apply (H2 i). cbn [length] in *. lia.
  - intros HI. split; [pose proof (increasing_hd _ _ _ HI); num_qc; qc_bool; auto|]. apply IH. exact (increasing_tl _ _ HI).
Qed.

Lemma combine_fst {X Y} (l : list X) (m : list Y) : length m = length l -> map fst (combine l m) = l.
Proof. revert m. induction l as [|x l IH]; intros [|y m] E; cbn in *; try discriminate; auto. f_equal. auto. Qed.
Lemma combine_snd {X Y} (l : list X) (m : list Y) : length m = length l -> map snd (combine l m) = m.
Proof. revert m. induction l as [|x l IH]; intros [|y m] E; cbn in *; try discriminate; auto. f_equal. auto. Qed.
Lemma combine_nth_error {X Y} (l : list X) (m : list Y) i x y :
  nth_error (combine l m) i = Some (x, y) <-> nth_error l i = Some x /\ nth_error m i = Some y.
Proof.
  revert l m. induction i as [|i IH]; intros [|a l] [|b m]; cbn; try (split; [discriminate|intros [? ?]; discriminate]).
  - split; [intros E; injection E; intros; subst; auto|intros [E1 E2]; injection E1; injection E2; intros; subst; auto].
  - apply IH.
Qed.

(** A rule for the slopes at the knots. *)
Record rule (slopes : list (Qc * Qc) -> res (list Qc)) : Prop := MkRule {
  rule_length : forall pts ds, slopes pts = Ok ds -> length ds = length pts;
  rule_total : forall pts, increasing (map fst pts) -> 3 <= zlen pts -> exists ds, slopes pts = Ok ds;
  rule_affine : forall a b pts ds, slopes pts = Ok ds ->
    slopes (map (fun p => (fst p, a * snd p + b)%Qc) pts) = Ok (map (Qcmult a) ds);
  rule_turn : forall L pts ds, increasing (map fst pts) -> slopes pts = Ok ds ->
    slopes (turned L pts) = Ok (rev (map Qcopp ds)) }.

Section Rule.
Variable slopes : list (Qc * Qc) -> res (list Qc).
Hypothesis R : rule slopes.

Lemma draw_inv pts t v : draw slopes pts t = Ok v ->
  exists ds, slopes pts = Ok ds /\ length ds = length pts /\ increasing (map fst pts) /\ mapM (ppoly (combine pts ds)) t = Ok v.
Proof.
  unfold draw. destruct (strictly_up (map fst pts)) eqn:E; [|discriminate]. intros HE.
  apply bind_ok in HE as (ds & E1 & E2). exists ds. split; auto. split; [eapply rule_length; eauto|].
  split; auto. apply strictly_up_iff; auto.
Qed.
Lemma draw_ok pts t ds v : increasing (map fst pts) -> slopes pts = Ok ds -> mapM (ppoly (combine pts ds)) t = Ok v ->
  draw slopes pts t = Ok v.
Proof.
  intros HI Ed Ev. unfold draw. rewrite (proj2 (strictly_up_iff _) HI), Ed. exact Ev.
Qed.

Lemma draw_total pts t : increasing (map fst pts) -> 3 <= zlen pts ->
  (forall u, In u t -> exists p q, nth_error pts 0 = Some p /\ nth_error pts (length pts - 1) = Some q /\
                       (fst p <= u)%Qc /\ (u <= fst q)%Qc) ->
  exists v, draw slopes pts t = Ok v /\ length v = length t.
Proof.
  intros HI H3 Ht. destruct (rule_total _ R pts HI H3) as (ds & Ed). pose proof (rule_length _ R _ _ Ed) as Ld.
  assert (E : exists v, mapM (ppoly (combine pts ds)) t = Ok v).
  { induction t as [|u t IH]; [exists []; reflexivity|].
    destruct (ppoly_ok (combine pts ds) u) as (v & Ev).
    - rewrite combine_fst; auto.
    - rewrite combine_length, Ld. unfold zlen in H3. lia.
    - destruct (Ht u (or_introl eq_refl)) as (p & q & Ep & Eq & G1 & G2).
      rewrite combine_length, Ld, Nat.min_id.
      destruct (nth_error ds 0) as [d0|] eqn:D0; [|apply nth_error_None in D0; unfold zlen in H3; lia].
      destruct (nth_error ds (length pts - 1)) as [d1|] eqn:D1; [|apply nth_error_None in D1; unfold zlen in H3; lia].
      exists (p, d0), (q, d1). split; [apply combine_nth_error; auto|]. split; [apply combine_nth_error; auto|]. auto.
    - destruct IH as (vs & Evs); [intros w Hw; apply Ht; right; auto|].
      exists (v :: vs). cbn [mapM]. rewrite Ev. cbn [bind]. rewrite Evs. reflexivity. }
  destruct E as (v & Ev). exists v. split; [eapply draw_ok; eauto|]. eapply mapM_ok_length; eauto.
Qed.

Lemma draw_passes pts t v : draw slopes pts t = Ok v -> length v = length t /\
  forall i p, In p pts -> nth_error t i = Some (fst p) -> nth_error v i = Some (snd p).
Proof.
  intros E. destruct (draw_inv _ _ _ E) as (ds & Ed & Ld & HI & Ev). split; [eapply mapM_ok_length; eauto|].
  intros i p Hp Hi. destruct (mapM_nth _ _ _ Ev i _ Hi) as (y & Hy & Ey). rewrite Hy. f_equal.
  rewrite <- (combine_fst pts ds Ld) in Hp. apply in_map_iff in Hp as (k & <- & Hk).
  eapply ppoly_knot; eauto. rewrite combine_fst; auto.
Qed.

Lemma mapM_map {X Y} (f g : X -> res Y) (h : Y -> Y) l v : (forall x y, In x l -> f x = Ok y -> g x = Ok (h y)) ->
  mapM f l = Ok v -> mapM g l = Ok (map h v).
Proof.
  revert v. induction l as [|x l IH]; intros v Hh E; cbn [mapM] in *.
  - apply ok_inv in E. subst v. reflexivity.
  - apply bind_ok in E as (y & E1 & E). apply bind_ok in E as (ys & E2 & E). apply ok_inv in E. subst v.
    rewrite (Hh x y (or_introl eq_refl) E1). cbn [bind].
    rewrite (IH ys (fun x y Hx => Hh x y (or_intror Hx)) E2). reflexivity.
Qed.
Lemma ppoly_affine a b ks u v : ppoly ks u = Ok v ->
  ppoly (map (fun k => (fst (fst k), a * snd (fst k) + b, a * snd k)%Qc) ks) u = Ok (a * v + b)%Qc.
Proof.
  induction ks as [|[[x0 y0] d0] ks IH]; [discriminate|]. destruct ks as [|[[x1 y1] d1] ks]; [discriminate|].
  cbn [ppoly map fst snd] in *. destruct (nltb u x0); [discriminate|]. destruct (nleb u x1); [|exact IH].
  intros E. apply ok_inv in E. subst v. f_equal. apply hermite_affine.
Qed.
Lemma draw_affine a b pts t v : draw slopes pts t = Ok v ->
  draw slopes (map (fun p => (fst p, a * snd p + b)%Qc) pts) t = Ok (map (fun y => a * y + b)%Qc v).
Proof.
  intros E. destruct (draw_inv _ _ _ E) as (ds & Ed & Ld & HI & Ev).
  eapply draw_ok; [rewrite map_map; exact HI|apply (rule_affine _ R); eauto|].
  replace (combine (map (fun p => (fst p, a * snd p + b)%Qc) pts) (map (Qcmult a) ds))
    with (map (fun k => (fst (fst k), a * snd (fst k) + b, a * snd k)%Qc) (combine pts ds)).
  - apply (mapM_map (ppoly (combine pts ds)) _ (fun y => a * y + b)%Qc); auto. intros u y _ Hy. apply ppoly_affine. exact Hy.
  - clear. revert ds. induction pts as [|p pts IH]; intros [|d ds]; cbn; auto. f_equal. auto.
Qed.

Definition turned3 (L : Qc) (ks : list (Qc * Qc * Qc)) : list (Qc * Qc * Qc) :=
  map (fun k => (L - fst (fst k), snd (fst k), - snd k)%Qc) (rev ks).
Lemma turned3_combine L pts ds : length ds = length pts ->
  combine (turned L pts) (rev (map Qcopp ds)) = turned3 L (combine pts ds).
Proof.
  unfold turned, turned3. revert ds. induction pts as [|p pts IH]; intros [|d ds] E; cbn in *; try discriminate; auto.
  injection E as E. rewrite !map_app. cbn [map]. rewrite <- IH by auto.
  rewrite <- (rev_involutive (rev (map Qcopp ds))) at 1. 
  assert (G : forall (a : list (Qc * Qc)) (b : list Qc) x y, length b = length a -> combine (a ++ [x]) (b ++ [y]) = combine a b ++ [(x, y)]).
  { clear. induction a as [|a0 a IH]; intros [|b0 b] x y E; cbn in *; try discriminate; auto. f_equal. auto. }
  rewrite rev_involutive. apply G. rewrite rev_length, !map_length, rev_length. auto.
Qed.
Lemma ppoly_turn L ks u v : increasing (map fst (map fst ks)) -> ppoly ks u = Ok v -> ppoly (turned3 L ks) (L - u)%Qc = Ok v.
Proof.
  intros I E. destruct (ppoly_seg _ _ _ E) as (a & x0 & y0 & d0 & x1 & y1 & d1 & b & -> & H0 & H1 & ->).
  assert (Hx : (x0 < x1)%Qc).
  { apply (proj1 (increasing_pair _) I (map fst (map fst a)) x0 x1 (map fst (map fst b))). rewrite !map_app. reflexivity. }
  assert (I' : increasing (map fst (map fst (turned3 L (a ++ (x0, y0, d0) :: (x1, y1, d1) :: b))))).
  { replace (map fst (map fst (turned3 L (a ++ (x0, y0, d0) :: (x1, y1, d1) :: b))))
      with (map fst (turned L (map fst (a ++ (x0, y0, d0) :: (x1, y1, d1) :: b)))).
    - apply increasing_turned. exact I.
    - unfold turned, turned3. rewrite <- map_rev, !map_map. reflexivity. }
  assert (ES : turned3 L (a ++ (x0, y0, d0) :: (x1, y1, d1) :: b) =
    turned3 L b ++ ((L - x1)%Qc, y1, (- d1)%Qc) :: ((L - x0)%Qc, y0, (- d0)%Qc) :: turned3 L a).
  { unfold turned3. rewrite rev_app_distr. cbn [rev]. rewrite !map_app, <- !app_assoc. reflexivity. }
  rewrite ES in *. rewrite seg_ppoly; auto; try qclra. f_equal. apply hermite_turn. auto.
Qed.
Lemma draw_turn L pts t v : draw slopes pts t = Ok v ->
  draw slopes (turned L pts) (map (fun u => L - u)%Qc (rev t)) = Ok (rev v).
Proof.
  intros E. destruct (draw_inv _ _ _ E) as (ds & Ed & Ld & HI & Ev).
  eapply draw_ok; [apply increasing_turned; exact HI|apply (rule_turn _ R); eauto|].
  rewrite turned3_combine by auto. assert (HI' : increasing (map fst (map fst (combine pts ds)))) by (rewrite combine_fst; auto).
  clear - Ev HI'. revert v Ev. induction t as [|u t IH]; intros v Ev; cbn [mapM rev map] in *.
  - apply ok_inv in Ev. subst v. reflexivity.
  - apply bind_ok in Ev as (y & E1 & E). apply bind_ok in E as (ys & E2 & E). apply ok_inv in E. subst v.
    rewrite map_app. cbn [rev]. apply mapM_app; auto. cbn [map mapM]. rewrite (ppoly_turn L _ u y HI' E1). reflexivity.
Qed.

(** The curve itself. *)
Fixpoint pieces (ks : list (Qc * Qc * Qc)) : list piece :=
  match ks with
  | (x0, y0, d0) :: (((x1, y1, d1) :: _) as ks') => piece_of x0 y0 d0 x1 y1 d1 :: pieces ks'
  | _ => []
  end.
Lemma pieces_curve ks : ks <> [] -> increasing (map fst (map fst ks)) -> curve (map fst ks) (pieces ks).
Proof.
  induction ks as [|[[x0 y0] d0] ks IH]; intros Hn HI; [congruence|]. destruct ks as [|[[x1 y1] d1] ks]; [exact I|].
  pose proof (increasing_hd _ _ _ HI) as Hx. cbn [fst] in Hx.
  change (curve ((x0, y0) :: map fst ((x1, y1, d1) :: ks)) (piece_of x0 y0 d0 x1 y1 d1 :: pieces ((x1, y1, d1) :: ks))).
  cbn [curve map fst snd]. split; [apply piece_left|]. split; [apply piece_right; auto|].
  apply IH; [discriminate|]. exact (increasing_tl _ _ HI).
Qed.
Lemma pieces_slope ks : increasing (map fst (map fst ks)) -> joined slope (map fst ks) (pieces ks).
Proof.
  induction ks as [|[[x0 y0] d0] ks IH]; intros HI; [exact I|]. destruct ks as [|[[x1 y1] d1] ks]; [exact I|].
  pose proof (increasing_hd _ _ _ HI) as Hx. cbn [fst] in Hx. pose proof (IH (increasing_tl _ _ HI)) as G. clear IH.
  destruct ks as [|[[x2 y2] d2] ks]; [exact I|].
  change (slope (piece_of x0 y0 d0 x1 y1 d1) (x1 - x0)%Qc = slope (piece_of x1 y1 d1 x2 y2 d2) 0%Qc /\
          joined slope (map fst ((x1, y1, d1) :: (x2, y2, d2) :: ks)) (pieces ((x1, y1, d1) :: (x2, y2, d2) :: ks))).
  split; [|exact G]. rewrite piece_slope_left. apply piece_slope_right; auto.
Qed.
Lemma pieces_nth ks i : forall x0 y0 d0 x1 y1 d1, nth_error ks i = Some (x0, y0, d0) -> nth_error ks (Datatypes.S i) = Some (x1, y1, d1) ->
  nth_error (pieces ks) i = Some (piece_of x0 y0 d0 x1 y1 d1).
Proof.
  revert ks. induction i as [|i IH]; intros [|[[a b] c] [|[[a' b'] c'] ks]] x0 y0 d0 x1 y1 d1 E0 E1; try discriminate.
  - cbn in *. injection E0; injection E1; intros; subst; reflexivity.
  - change (nth_error (pieces ((a', b', c') :: ks)) i = Some (piece_of x0 y0 d0 x1 y1 d1)). apply IH; auto.
Qed.
Lemma ppoly_height ks u v : ppoly ks u = Ok v -> height (map fst ks) (pieces ks) u v.
Proof.
  intros E. destruct (ppoly_seg _ _ _ E) as (a & x0 & y0 & d0 & x1 & y1 & d1 & b & -> & H0 & H1 & ->).
  assert (N0 : nth_error (a ++ (x0, y0, d0) :: (x1, y1, d1) :: b) (length a) = Some (x0, y0, d0)).
  { rewrite nth_error_app2, Nat.sub_diag by lia. reflexivity. }
  assert (N1 : nth_error (a ++ (x0, y0, d0) :: (x1, y1, d1) :: b) (Datatypes.S (length a)) = Some (x1, y1, d1)).
  { rewrite nth_error_app2 by lia. replace (Datatypes.S (length a) - length a)%nat with 1%nat by lia. reflexivity. }
  exists (length a), (x0, y0), (x1, y1), (piece_of x0 y0 d0 x1 y1 d1).
  split; [rewrite nth_error_map, N0; reflexivity|]. split; [rewrite nth_error_map, N1; reflexivity|].
  split; [apply pieces_nth; auto|]. cbn [fst]. split; auto. split; auto. apply hermite_value.
Qed.
Lemma draw_curve pts t v : draw slopes pts t = Ok v -> pts <> [] ->
  exists ds, slopes pts = Ok ds /\ length ds = length pts /\ increasing (map fst pts) /\ curve pts (pieces (combine pts ds)) /\
    joined slope pts (pieces (combine pts ds)) /\ Forall2 (height pts (pieces (combine pts ds))) t v.
Proof.
  intros E Hn. destruct (draw_inv _ _ _ E) as (ds & Ed & Ld & HI & Ev). exists ds. split; auto. split; auto. split; auto.
  assert (HI' : increasing (map fst (map fst (combine pts ds)))) by (rewrite combine_fst; auto).
  pose proof (combine_fst pts ds Ld) as EF. split; [|split].
  - rewrite <- EF at 1. apply pieces_curve; auto. intros C. rewrite C in EF. auto.
  - rewrite <- EF at 1. apply pieces_slope; auto.
  - clear E. revert v Ev. induction t as [|u t IH]; intros v Ev; cbn [mapM] in Ev.
    + apply ok_inv in Ev. subst v. constructor.
    + apply bind_ok in Ev as (y & E1 & E). apply bind_ok in E as (ys & E2 & E). apply ok_inv in E. subst v.
      constructor; auto. rewrite <- EF at 1. apply ppoly_height; auto.
Qed.
End Rule.
