(** * NegJit: the compiled variant on the negated signal, for every symmetric arithmetic (lemmas). *)
From Verif Require Import PyFacts Emd Spec Runs EmdProofs EmdSym Jit NegGen NegEmd.
From Coq Require Import ZifyBool ZifyNat.
From Coq Require Import List.
Import ListNotations.
Open Scope Z_scope.

Section Neg.
Context {A : Type} `{Num A}.
Variable ng : A -> A -> Prop.
Hypothesis L : symmetric ng.
Notation F2 := (Forall2 ng).
Notation P2 := (Forall2 (ngp ng)).

(** ** Extrema *)
Lemma plateau_spec (d : list A) runs imax imin :
  plateau_loop d runs imax imin =
  let! d_before := py_take d (map (fun r => fst r - 1) runs) in
  let! d_after := py_take d (map snd runs) in
  let midpoints := map (fun r => round_half (snd r + fst r)) runs in
  Ok (imax ++ mask midpoints (map2 (fun b a => nltb n0 b && nltb a n0) d_before d_after),
      imin ++ mask midpoints (map2 (fun b a => nltb b n0 && nltb n0 a) d_before d_after)).
Proof.
  revert imax imin. induction runs as [|[a b] runs IH]; intros imax imin.
  - cbn. rewrite !app_nil_r. reflexivity.
  - cbn [plateau_loop map fst snd]. unfold py_take in *. cbn [mapM].
    destruct (py_get d (a - 1)) as [x|e] eqn:Ex; [|reflexivity]. cbn [bind].
    destruct (py_get d b) as [y|e'] eqn:Ey.
    + cbn [bind]. rewrite !IH.
      destruct (mapM _ (map (fun r => fst r - 1) runs)) as [l|e] eqn:El; cbn [bind];
        [|destruct (_ && _); [|destruct (_ && _)]; reflexivity].
      destruct (mapM _ (map snd runs)) as [l'|e] eqn:El'; cbn [bind];
        [|destruct (_ && _); [|destruct (_ && _)]; reflexivity].
      cbn [map2 mask]. rewrite (Z.add_comm b a).
      destruct (nltb n0 x && nltb y n0) eqn:E1.
      * replace (nltb x n0 && nltb n0 y) with false; [rewrite <- app_assoc; reflexivity|].
        symmetry. apply andb_true_iff in E1 as [E1 _]. destruct (nltb x n0) eqn:E2; [|reflexivity].
        exfalso. exact (s_asym _ L _ E2 E1).
      * destruct (nltb x n0 && nltb n0 y); [rewrite <- app_assoc; reflexivity|reflexivity].
    + apply py_get_raise in Ey as ->. cbn [bind].
      destruct (mapM _ (map (fun r => fst r - 1) runs)) as [l|e] eqn:El; cbn [bind]; [reflexivity|].
      apply mapM_raise in El as (z & _ & El'). apply py_get_raise in El' as ->. reflexivity.
Qed.
Lemma mask_some {X} (l : list X) m : length l = length m -> (0 <? zlen (mask l m)) = existsb (fun b => b) m.
Proof.
  revert m. induction l as [|x l IH]; destruct m as [|[|] m]; intros E; try discriminate; try reflexivity; cbn [mask existsb].
  simpl in E. apply IH. lia.
Qed.
Lemma idx_same (S : list A) : jit_extrema_idx S = extrema_idx S.
Proof.
  unfold jit_extrema_idx, extrema_idx. cbv zeta. destruct (existsb _ _); [|reflexivity].
  set (runs := drop_last_run _ _). destruct runs as [|r runs]; [reflexivity|]. set (rs := r :: runs).
  rewrite plateau_spec. destruct (py_take _ (map (fun r => fst r - 1) rs)) as [l|] eqn:El; [|reflexivity].
  cbn [bind]. destruct (py_take _ (map snd rs)) as [l'|] eqn:El'; [|reflexivity]. cbn [bind]. cbn [app].
  apply mapM_ok_length in El. apply mapM_ok_length in El'. rewrite map_length in El, El'.
  rewrite !mask_some by (rewrite map_length, map2_length_eq by congruence; congruence). reflexivity.
Qed.
Lemma jfind_ng T S S' e : F2 S S' -> jit_find_extrema Simple T S = Ok e -> exists e', jit_find_extrema Simple T S' = Ok e' /\ swapped ng e e'.
Proof.
  intros HS. cbn [jit_find_extrema]. unfold jit_find_extrema_simple. rewrite !idx_same. intros E. apply bind_ok in E as ([M m] & E0 & E).
  rewrite (extrema_ng ng L _ _ _ _ HS E0). cbn [bind]. apply bind_ok in E as (mv & E2 & E). apply bind_ok in E as (nv & E4 & E). apply ok_inv in E. subst e.
  destruct (take_rel ng _ _ _ _ HS E2) as (mv' & E2' & Hm). destruct (take_rel ng _ _ _ _ HS E4) as (nv' & E4' & Hn).
  rewrite E4'. cbn [bind]. rewrite E2'. cbn [bind]. eexists. split; [reflexivity|]. unfold swapped. cbn. rewrite (zc_ng ng L _ _ HS). auto 6.
Qed.

(** The arithmetic represents the indices below [n]. *)
Definition counts (n : nat) : Prop := forall i, 0 <= i < Z.of_nat n -> ntrunc (nofZ i : A) = i.
Lemma get_lt {X} (l : list X) i x : 0 <= i -> py_get l i = Ok x -> i < zlen l.
Proof. intros Hi E. apply py_get_nat in E; auto. assert (nth_error l (Z.to_nat i) <> None) as N by congruence. apply nth_error_Some in N. unfold zlen. lia. Qed.
Lemma take_each {X} (l : list X) idx r i : py_take l idx = Ok r -> In i idx -> exists x, py_get l i = Ok x.
Proof.
  unfold py_take. revert r. induction idx as [|k idx IH]; intros r E HI; [destruct HI|]. cbn [mapM] in E.
  apply bind_ok in E as (x & E1 & E). apply bind_ok in E as (r' & E2 & E). destruct HI as [->|HI]; eauto.
Qed.
Lemma jheads T S e : counts (length S) -> jit_find_extrema Simple T S = Ok e -> 2 < ext_no e ->
  hd_error (map ntrunc (max_pos e)) <> hd_error (map ntrunc (min_pos e)) /\
  hd_error (rev (map ntrunc (max_pos e))) <> hd_error (rev (map ntrunc (min_pos e))).
Proof.
  intros HT E H3. cbn [jit_find_extrema] in E. unfold jit_find_extrema_simple in E. rewrite idx_same in E. apply bind_ok in E as ([M m] & E0 & E).
  apply bind_ok in E as (mv & E2 & E). apply bind_ok in E as (nv & E4 & E). apply ok_inv in E. subst e. unfold ext_no in H3. cbn [max_pos min_pos] in *.
  assert (ID : forall l, (forall i, In i l -> In i M \/ In i m) -> map ntrunc (map nofZ l : list A) = l).
  { intros l Hl. rewrite map_map. rewrite <- map_id. apply map_ext_in. intros i Hi. apply HT.
    assert (0 <= i) by (apply (extrema_nonneg ng L _ _ _ i E0); auto).
    assert (exists x, py_get S i = Ok x) as (x & Hx) by (destruct (Hl i Hi); [eapply take_each; [exact E2|]|eapply take_each; [exact E4|]]; auto).
    pose proof (get_lt _ _ _ H0 Hx) as HL. unfold zlen in HL. lia. }
  rewrite !ID by auto. assert (D : forall i, In i M -> In i m -> False) by (intros i; eapply (extrema_disjoint ng L); eauto).
  unfold zlen in H3. rewrite !map_length in H3.
  assert (G : forall M' m' : list Z, (forall i, In i M' -> In i M) -> (forall i, In i m' -> In i m) -> (length M' + length m' <> 0)%nat -> hd_error M' <> hd_error m').
  { intros [|i M'] [|j m'] H1 H2 H0 X; cbn in *; try discriminate; try lia. injection X as <-. apply (D i); auto. }
  split; apply G; auto; try (intros i; rewrite <- in_rev; auto); rewrite ?rev_length; lia.
Qed.

(** ** Boundary points *)
Lemma first_ng P P' : P2 P P' -> P2 (dedupe_first P) (dedupe_first P').
Proof.
  assert (G : forall prev P P', P2 P P' -> P2 (dedupe_after prev P) (dedupe_after prev P')).
  { intros prev Q Q' HQ. revert prev. induction HQ as [|p p' Q Q' Hp HQ IH]; intros prev; cbn [dedupe_after]; [constructor|].
    rewrite (proj1 Hp). destruct (neqb _ _); auto. }
  destruct 1 as [|p p' P P' Hp HP]; cbn [dedupe_first]; [constructor|]. rewrite (proj1 Hp). constructor; auto.
Qed.
Lemma jprepare_ng nb T S S' e e' P Q : F2 S S' -> swapped ng e e' ->
  hd_error (map ntrunc (max_pos e)) <> hd_error (map ntrunc (min_pos e)) ->
  hd_error (rev (map ntrunc (max_pos e))) <> hd_error (rev (map ntrunc (min_pos e))) ->
  jit_prepare_points_simple nb T S e = Ok (P, Q) ->
  exists P' Q', jit_prepare_points_simple nb T S' e' = Ok (Q', P') /\ P2 P P' /\ P2 Q Q'.
Proof.
  intros HS (Es1 & Es2 & _). unfold jit_prepare_points_simple. cbv zeta. intros H1 H2 E. rewrite Es1, Es2, (F2_zlen _ _ _ HS).
  set (M := map ntrunc (max_pos e)) in *. set (m := map ntrunc (min_pos e)) in *. clearbody M m.
  apply bind_ok in E as ([[lx ln] cl] & E1 & E). apply bind_ok in E as ([[rx rn] cr] & E2 & E).
  assert (G1 : exists M0 m0, py_get M 0 = Ok M0 /\ py_get m 0 = Ok m0).
  { unfold left_bound in E1. apply bind_ok in E1 as (M0 & F1 & E1). apply bind_ok in E1 as (m0 & F2 & E1). eauto. }
  assert (G2 : exists M0 m0, py_get M (-1) = Ok M0 /\ py_get m (-1) = Ok m0).
  { unfold right_bound in E2. apply bind_ok in E2 as (M0 & F1 & E2). apply bind_ok in E2 as (m0 & F2 & E2). eauto. }
  destruct G1 as (M0 & m0 & F1 & F2). destruct G2 as (Ml & ml & F3 & F4).
  assert (N1 : M0 <> m0).
  { intros ->. apply H1. destruct M, m; try discriminate. unfold py_get in F1, F2. cbn in F1, F2. cbn. congruence. }
  assert (N2 : Ml <> ml) by (intros ->; apply H2; apply py_get_last_rev in F3, F4; congruence).
  assert (HM : M <> []) by (intros ->; discriminate). assert (Hm : m <> []) by (intros ->; discriminate).
  pose proof (left_sym' _ _ _ _ _ _ _ _ _ F1 F2 E1) as C1. pose proof (right_sym' _ _ _ _ _ _ _ _ _ F3 F4 E2) as C2.
  rewrite (left_ng ng L _ _ _ _ _ _ _ _ HS H1 E1). cbn [bind]. rewrite (right_ng ng L _ _ _ _ _ _ _ _ HS H2 E2). cbn [bind].
  apply bind_ok in E as ([[[t1 l1] t2] l2] & E3 & E). apply bind_ok in E as ([[[t3 l3] t4] l4] & E4 & E).
  apply bind_ok in E as (mx & E5 & E). apply bind_ok in E as (mn & E6 & E).
  destruct (assemble_ng ng _ _ _ _ _ _ _ _ _ HS E5) as (mx' & E5' & R5). destruct (assemble_ng ng _ _ _ _ _ _ _ _ _ HS E6) as (mn' & E6' & R6).
  apply ok_inv in E. apply pair_inv in E as [-> ->].
  rewrite (mirror_left_swap' _ _ _ _ _ _ _ _ _ _ _ _ _ F1 F2 N1 C1 (or_default_ne _ _ HM) (or_default_ne _ _ Hm) E3). cbn [bind].
  rewrite (mirror_right_swap' _ _ _ _ _ _ _ _ _ _ _ _ _ _ F3 F4 N2 C2 (or_default_ne _ _ HM) (or_default_ne _ _ Hm) E4). cbn [bind].
  rewrite E6'. cbn [bind]. rewrite E5'. cbn [bind]. do 2 eexists. split; [reflexivity|]. split; apply first_ng; auto.
Qed.

(** ** Envelopes *)
Ltac ngc := repeat first [ assumption | apply (s_add _ L) | apply (s_sub _ L) | apply (s_mull _ L) | apply (s_mulr _ L) | apply (s_div _ L) | apply (s_opp _ L) ].

Lemma invdot_ng a b c d e f g h i v1 v2 v3 v1' v2' v3' k0 k1 k2 : ng v1 v1' -> ng v2 v2' -> ng v3 v3' ->
  invdot3 a b c d e f g h i v1 v2 v3 = Ok (k0, k1, k2) ->
  exists k0' k1' k2', invdot3 a b c d e f g h i v1' v2' v3' = Ok (k0', k1', k2') /\ ng k0 k0' /\ ng k1 k1' /\ ng k2 k2'.
Proof.
  intros H1 H2 H3. unfold invdot3. cbv zeta. destruct (is0 _); [discriminate|]. intros E. apply ok_inv in E. injection E as -> -> ->.
  do 3 eexists. split; [reflexivity|]. repeat split; ngc.
Qed.
Lemma jcoeffs_ng x0 x1 x2 y0 y1 y2 y0' y1' y2' a1 b1 a2 b2 : ng y0 y0' -> ng y1 y1' -> ng y2 y2' ->
  jit_spline3_coeffs x0 x1 x2 y0 y1 y2 = Ok (a1, b1, a2, b2) ->
  exists a1' b1' a2' b2', jit_spline3_coeffs x0 x1 x2 y0' y1' y2' = Ok (a1', b1', a2', b2') /\ ng a1 a1' /\ ng b1 b1' /\ ng a2 a2' /\ ng b2 b2'.
Proof.
  intros H0 H1 H2. unfold jit_spline3_coeffs. cbv zeta. destruct (_ || _); [discriminate|]. intros E.
  apply bind_ok in E as ([[k0 k1] k2] & E1 & E).
  eapply invdot_ng in E1 as (k0' & k1' & k2' & E1' & K0 & K1 & K2); [rewrite E1'; cbn [bind]|..].
  - apply ok_inv in E. injection E as -> -> -> ->. do 4 eexists. split; [reflexivity|]. repeat split; ngc.
  - ngc.
  - ngc.
  - ngc.
Qed.
Lemma jcubic3_ng P P' T t v : P2 P P' -> jit_cubic_spline_3pts P T = Ok (t, v) -> exists v', jit_cubic_spline_3pts P' T = Ok (t, v') /\ F2 v v'.
Proof.
  intros HP. destruct HP as [|[x0 y0] [x0' y0'] P P' [X0 Y0] HP]; [discriminate|].
  destruct HP as [|[x1 y1] [x1' y1'] P P' [X1 Y1] HP]; [discriminate|].
  destruct HP as [|[x2 y2] [x2' y2'] P P' [X2 Y2] HP]; [discriminate|].
  destruct HP; [|discriminate]. cbn [fst snd] in *. subst x0' x1' x2'. cbn [jit_cubic_spline_3pts]. intros E.
  apply bind_ok in E as ([[[a1 b1] a2] b2] & E1 & E).
  eapply jcoeffs_ng in E1 as (a1' & b1' & a2' & b2' & E1 & C1 & C2 & C3 & C4); [rewrite E1; cbn [bind]|eassumption..].
  apply ok_inv in E. injection E as -> ->. eexists. split; [reflexivity|].
  apply Forall2_app; apply (F2_map_fun ng); intros u; apply (piece_ng ng L); auto.
Qed.
Lemma jspline_ng spl kind T P P' v : odd_spline ng spl -> P2 P P' -> jit_spline_points spl kind T P = Ok v -> exists v', jit_spline_points spl kind T P' = Ok v' /\ F2 v v'.
Proof.
  intros Hs HP. unfold jit_spline_points. intros E. apply bind_ok in E as (t & E1 & E). rewrite (window_ng ng _ _ _ _ HP E1). cbn [bind].
  destruct (parse_kind kind) as [[]|]; try discriminate; try (eapply Hs; eauto; fail). rewrite (F2_zlen _ _ _ HP).
  destruct (3 <? zlen P); [eapply Hs; eauto|]. apply bind_ok in E as ([u w] & E2 & E).
  destruct (jcubic3_ng _ _ _ _ _ HP E2) as (w' & -> & R). cbn [bind]. apply ok_inv in E. subst v. eauto.
Qed.
Lemma broadcast_sub_ng x x' y y' s : F2 x x' -> F2 y y' -> broadcast2 nsub x y = Ok s -> exists s', broadcast2 nsub x' y' = Ok s' /\ F2 s s'.
Proof.
  intros HM Hm. unfold broadcast2. rewrite (F2_length _ _ _ HM), (F2_length _ _ _ Hm).
  assert (G : forall u u' l l', ng u u' -> F2 l l' -> F2 (map (nsub u) l) (map (nsub u') l')).
  { intros. apply (map_rel ng ng); auto. intros. apply (s_sub _ L); auto. }
  assert (G' : forall u u' l l', ng u u' -> F2 l l' -> F2 (map (fun z => nsub z u) l) (map (fun z => nsub z u') l')).
  { intros. apply (map_rel ng ng); auto. intros. apply (s_sub _ L); auto. }
  destruct (Nat.eqb_spec (length x) (length y)) as [EL|EL].
  - intros E. apply ok_inv in E. subst s. eexists. split; [reflexivity|]. apply (map2_rel ng ng); auto. intros. apply (s_sub _ L); auto.
  - destruct HM as [|a a' M M' Hx [|x2 x2' M2 M2' Hx2 HM]].
    + destruct Hm as [|b b' m m' Hy [|y2 y2' m2 m2' Hy2 Hm]]; cbn in EL; try discriminate; try lia.
      intros E. apply ok_inv in E. subst s. eexists. split; [reflexivity|]. constructor.
    + destruct Hm as [|b b' m m' Hy [|y2 y2' m2 m2' Hy2 Hm]]; cbn in EL; try lia;
      intros E; apply ok_inv in E; subst s; eexists; (split; [reflexivity|]).
      * constructor.
      * apply G; auto.
    + destruct Hm as [|b b' m m' Hy [|y2 y2' m2 m2' Hy2 Hm]]; try discriminate.
      intros E. apply ok_inv in E. subst s. eexists. split; [reflexivity|]. apply G'; auto.
Qed.

(** ** The loops *)
Variable spl : spline_oracle A.
Hypothesis Hs : odd_spline ng spl.
Variable c : emd_config A.
Hypothesis Hd : extrema_detection c = Simple.
Variable T : list A.

Lemma jstep_ng S S' x P Q : counts (length S) -> F2 S S' -> jit_sift_step spl c T S = Ok (x, P, Q) ->
  exists x' P' Q', jit_sift_step spl c T S' = Ok (x', Q', P') /\ F2 x x' /\ P2 P P' /\ P2 Q Q'.
Proof.
  intros HT HS. unfold jit_sift_step, extract_max_min_extrema. rewrite Hd. intros E. apply bind_ok in E as ([P0 Q0] & E1 & E).
  apply bind_ok in E1 as (e & E0 & E1). destruct (jfind_ng _ _ _ _ HS E0) as (e' & -> & Hsw). cbn [bind].
  pose proof (swapped_no ng _ _ Hsw) as Hn. unfold ext_no in Hn. rewrite Hn.
  destruct (Z.ltb_spec (zlen (max_pos e) + zlen (min_pos e)) 3) as [|H3]; [discriminate|].
  destruct (jheads _ _ _ HT E0 ltac:(unfold ext_no; lia)) as [N1 N2]. cbn [jit_prepare_points] in *.
  destruct (jprepare_ng _ _ _ _ _ _ _ _ HS Hsw N1 N2 E1) as (P0' & Q0' & -> & RP & RQ). cbn [bind].
  apply bind_ok in E as (u & E3 & E). apply bind_ok in E as (v & E4 & E). apply bind_ok in E as (s & E5 & E). apply bind_ok in E as (y & E6 & E).
  apply ok_inv in E. injection E as -> -> ->.
  destruct (jspline_ng _ _ _ _ _ _ Hs RP E3) as (u' & E3' & R3). destruct (jspline_ng _ _ _ _ _ _ Hs RQ E4) as (v' & E4' & R4).
  rewrite E4'. cbn [bind]. rewrite E3'. cbn [bind].
  destruct (broadcast_ng ng L _ _ _ _ _ R3 R4 E5) as (s' & -> & Rs). cbn [bind].
  destruct (broadcast_sub_ng _ _ _ (map (nmul nhalf) s') _ HS (map_rel ng ng _ _ _ _ Rs (fun a b => s_mull _ L nhalf a b)) E6) as (y' & -> & Ry). cbn [bind].
  do 3 eexists. split; [reflexivity|auto].
Qed.
Lemma filter_ng (f g : A * A -> bool) P P' : P2 P P' -> (forall p q, ngp ng p q -> g q = f p) -> zlen (filter g P') = zlen (filter f P).
Proof. intros HP Hfg. unfold zlen. f_equal. induction HP as [|p q P P' Hp HP IH]; cbn [filter]; auto. rewrite (Hfg p q Hp). destruct (f p); cbn [length]; congruence. Qed.
Lemma jcheck_ng strict x x' y y' P P' Q Q' b : F2 x x' -> F2 y y' -> P2 P P' -> P2 Q Q' -> jit_check_imf strict c x y P Q = Ok b -> jit_check_imf strict c x' y' Q' P' = Ok b.
Proof.
  intros Hx Hy HP HQ. unfold jit_check_imf. cbv zeta.
  rewrite (filter_ng (fun p => nltb n0 (snd p)) (fun p => nltb (snd p) n0) _ _ HQ) by (intros p q [_ R]; apply (neg0 ng L); auto).
  rewrite (filter_ng (fun p => nltb (snd p) n0) (fun p => nltb n0 (snd p)) _ _ HP) by (intros p q [_ R]; apply (neg0 ng L); auto).
  rewrite Z.add_comm. destruct (_ <? _); auto.
  assert (SQ : forall u u', F2 u u' -> map (fun z => nmul z z) u' = map (fun z => nmul z z) u).
  { intros u u' Hu. apply (map_same ng); auto. intros. apply (s_sq _ L). auto. }
  rewrite (SQ x x' Hx), (SQ y y' Hy), (SQ (vsub x y) (vsub x' y')) by (apply (vsub_ng ng L); auto).
  destruct (nltb _ _); auto. intros E. apply bind_ok in E as (mx & E1 & E). apply bind_ok in E as (mn & E2 & E).
  destruct (range_ng ng L _ _ _ _ Hy E1 E2) as (mx' & mn' & -> & -> & R1 & R2). cbn [bind].
  destruct (s_swap _ L mx mx' mn mn' R1 R2) as (_ & Z & EQ). rewrite Z.
  rewrite (existsb_rel ng is0 is0 _ _ Hx) by (intros; apply (s_is0 _ L); auto).
  rewrite (map2_same ng (fun d x => nmul (ndiv d x) (ndiv d x)) (fun d x => nmul (ndiv d x) (ndiv d x)) (vsub x y) (vsub x' y') x x')
    by (try apply (vsub_ng ng L); auto; intros; apply (s_ratio _ L); auto).
  destruct (is0 (nsub mx mn)) eqn:E0; cbn [negb andb] in *; [exact E|]. rewrite EQ by auto. exact E.
Qed.
Lemma jfind_no S S' e : F2 S S' -> jit_find_extrema Simple T S = Ok e -> exists e', jit_find_extrema Simple T S' = Ok e' /\
  zlen (min_pos e') + zlen (max_pos e') = zlen (min_pos e) + zlen (max_pos e) /\ zlen (max_pos e') + zlen (min_pos e') = zlen (max_pos e) + zlen (min_pos e) /\ indzer e' = indzer e.
Proof.
  intros HS E. destruct (jfind_ng _ _ _ _ HS E) as (e' & E' & Hsw). exists e'. split; auto.
  destruct Hsw as (-> & -> & _ & _ & ->). repeat split; lia.
Qed.
(** A sift keeps the length: an array of one sample has no extrema. *)
Lemma jstep_length S x P Q : jit_sift_step spl c T S = Ok (x, P, Q) -> length x = length S.
Proof.
  unfold jit_sift_step, extract_max_min_extrema. rewrite Hd. intros E. apply bind_ok in E as ([P0 Q0] & E1 & E).
  destruct S as [|a [|b S]]; [discriminate|discriminate|].
  apply bind_ok in E as (u & _ & E). apply bind_ok in E as (v & _ & E). apply bind_ok in E as (s & _ & E). apply bind_ok in E as (y & E6 & E).
  apply ok_inv in E. injection E as -> _ _. revert E6. generalize (map (nmul nhalf) s). intros w. unfold broadcast2.
  destruct (Nat.eqb_spec (length (a :: b :: S)) (length w)) as [EL|EL].
  - intros E. apply ok_inv in E. subst y. apply map2_length_eq. auto.
  - destruct w as [|w0 [|w1 w]]; try discriminate. intros E. apply ok_inv in E. subst y. apply map_length.
Qed.
Lemma jsift_ng strict fuel n nh ext x x' y ext' fin : counts (length x) -> F2 x x' -> jit_sift spl fuel strict c T n nh ext x = Ok (y, ext', fin) ->
  exists y', jit_sift spl fuel strict c T n nh ext x' = Ok (y', ext', fin) /\ F2 y y' /\ length y = length x.
Proof.
  revert n nh ext x x'. induction fuel as [|fuel IH]; intros n nh ext x x' HC Hx; [discriminate|]. cbn [jit_sift]. cbv zeta.
  assert (DONE : forall (a a' : list A) e f, F2 a a' -> length a = length x -> Ok (a, e, f) = Ok (y, ext', fin) -> exists y', Ok (a', e, f) = Ok (y', ext', fin) /\ F2 y y' /\ length y = length x).
  { intros a a' e f Ha Hl E. apply ok_inv in E. injection E as -> -> ->. eauto. }
  destruct (MAX_ITERATION c <=? n + 1); [apply DONE; auto|]. rewrite Hd. intros E. apply bind_ok in E as (e & E1 & E).
  destruct (jfind_no _ _ _ Hx E1) as (e' & -> & N & N' & Z). cbn [bind]. rewrite N.
  destruct (2 <? _); [|revert E; apply DONE; auto].
  apply bind_ok in E as ([[x1 P] Q] & E2 & E). pose proof (jstep_length _ _ _ _ E2) as HL.
  destruct (jstep_ng _ _ _ _ _ HC Hx E2) as (x1' & P' & Q' & -> & R1 & RP & RQ). cbn [bind].
  assert (HC1 : counts (length x1)) by (rewrite HL; auto).
  assert (GO : forall n nh ext, jit_sift spl fuel strict c T n nh ext x1 = Ok (y, ext', fin) ->
    exists y', jit_sift spl fuel strict c T n nh ext x1' = Ok (y', ext', fin) /\ F2 y y' /\ length y = length x) by (rewrite <- HL; intros; eapply IH; eauto).
  destruct (negb (FIXE c =? 0)).
  { destruct (FIXE c <=? n + 1); [revert E; apply DONE; auto|]. apply GO; auto. }
  destruct (negb (FIXE_H c =? 0)).
  { apply bind_ok in E as (e2 & E3 & E). destruct (jfind_no _ _ _ R1 E3) as (e2' & -> & N2 & N2' & Z2). cbn [bind]. rewrite N2', Z2.
    destruct (n + 1 =? 1); [apply GO; auto|]. destruct (FIXE_H c <=? _); [revert E; apply DONE; auto|]. apply GO; auto. }
  apply bind_ok in E as (e2 & E3 & E). destruct (jfind_no _ _ _ R1 E3) as (e2' & -> & N2 & N2' & Z2). cbn [bind]. rewrite N2', Z2.
  apply bind_ok in E as (f1 & E4 & E). rewrite (jcheck_ng _ _ _ _ _ _ _ _ _ _ R1 Hx RP RQ E4). cbn [bind].
  destruct (f1 && _); [revert E; apply DONE; auto|]. apply GO; auto.
Qed.
Lemma vsub_short (x y : list A) : (length (vsub x y) <= length x)%nat.
Proof. unfold vsub. revert y. induction x as [|a x IH]; intros [|b y]; cbn; try lia. specialize (IH y). lia. Qed.
Lemma counts_le n m : (m <= n)%nat -> counts n -> counts m.
Proof. intros Hm HC i Hi. apply HC. lia. Qed.
Lemma jloop_ng strict fuel S S' k I I' ext J ext' : counts (length S) -> F2 S S' -> Forall2 (Forall2 ng) I I' -> jit_loop spl fuel strict c S T k I ext = Ok (J, ext') ->
  exists J', jit_loop spl fuel strict c S' T k I' ext = Ok (J', ext') /\ Forall2 (Forall2 ng) J J'.
Proof.
  intros HC. revert I I' ext. induction fuel as [|fuel IH]; intros I I' ext HS HI; [discriminate|]. cbn [jit_loop]. cbv zeta. rewrite (F2_length _ _ _ HS).
  intros E. apply bind_ok in E as ([[imf e1] fin] & E1 & E).
  destruct (jsift_ng _ _ _ _ _ _ (vsub S' (sum_rows (length S) I')) _ _ _ (counts_le _ _ (vsub_short _ _) HC) (vsub_ng ng L _ _ _ _ HS (sum_rows_ng ng L _ _ _ HI)) E1) as (imf' & -> & RI & _). cbn [bind].
  assert (HI' : Forall2 (Forall2 ng) (I ++ [imf]) (I' ++ [imf'])) by (apply Forall2_app; auto).
  apply bind_ok in E as (stop & E2 & E). rewrite (end_ng ng L _ _ _ _ _ _ HS HI' E2). cbn [bind]. rewrite (F2_zlen _ _ _ HI').
  destruct (stop || _). { apply ok_inv in E. injection E as -> ->. eauto. }
  destruct fin. { apply ok_inv in E. injection E as -> ->. eauto. }
  eapply IH; eauto.
Qed.
Lemma jemd_ng strict fuel S S' k M : counts (length S) -> F2 S S' -> jit_emd spl fuel strict c S T k = Ok M ->
  exists M', jit_emd spl fuel strict c S' T k = Ok M' /\ Forall2 (Forall2 ng) M M'.
Proof.
  intros HC HS. unfold jit_emd. rewrite (F2_length _ _ _ HS). destruct (negb _); [discriminate|]. intros E.
  apply bind_ok in E as ([I ext] & E1 & E). destruct (jloop_ng _ _ _ _ _ _ _ _ _ _ HC HS (Forall2_nil _) E1) as (I' & -> & HI). cbn [bind].
  apply ok_inv in E. subst M. eexists. split; [reflexivity|].
  set (K := if ext <=? 2 then removelast I else I). set (K' := if ext <=? 2 then removelast I' else I').
  assert (HK : Forall2 (Forall2 ng) K K') by (unfold K, K'; destruct (ext <=? 2); auto; apply removelast_rel; auto). clearbody K K'.
  assert (HR : F2 (vsub S (sum_rows (length S) K)) (vsub S' (sum_rows (length S) K'))) by (apply (vsub_ng ng L); auto; apply (sum_rows_ng ng L); auto).
  rewrite (allclose_ng ng L _ _ HR). destruct (allclose0 _); cbn [negb]; auto. apply Forall2_app; auto.
Qed.
End Neg.
