(** * NegGen: negation, for every arithmetic whose operations are symmetric about zero. *)
From Verif Require Import PyFacts Emd Spec Runs EmdProofs EmdSym Float64Proofs ExtremaSpec.
From Coq Require Import ZifyBool ZifyNat.
From Coq Require Import List.
Import ListNotations.
Open Scope Z_scope.

(** [ng x y]: [y] is the negative of [x].  What the operations must satisfy; in binary64 the sign of a
    zero is not determined. *)
Record symmetric {A} `{Num A} (ng : A -> A -> Prop) : Prop := MkSymmetric {
  s_sym : forall x y, ng x y -> ng y x;
  s_zero : ng n0 n0;
  s_ltb : forall x x' y y', ng x x' -> ng y y' -> nltb x' y' = nltb y x;
  s_is0 : forall x x', ng x x' -> is0 x' = is0 x;
  s_nan : forall x x', ng x x' -> not_a_number x' = not_a_number x;
  s_add : forall x x' y y', ng x x' -> ng y y' -> ng (nadd x y) (nadd x' y');
  s_sub : forall x x' y y', ng x x' -> ng y y' -> ng (nsub x y) (nsub x' y');
  s_comm : forall x y, nadd x y = nadd y x;
  s_mull : forall c x x', ng x x' -> ng (nmul c x) (nmul c x');
  s_mulr : forall c x x', ng x x' -> ng (nmul x c) (nmul x' c);
  s_div : forall c x x', ng x x' -> ng (ndiv x c) (ndiv x' c);
  s_opp : forall x x', ng x x' -> ng (nopp x) (nopp x');
  s_prod : forall x x' y y', ng x x' -> ng y y' -> nltb (nmul x' y') n0 = nltb (nmul x y) n0;
  s_sq : forall x x', ng x x' -> nmul x' x' = nmul x x;
  s_ratio : forall x x' y y', ng x x' -> ng y y' -> nmul (ndiv x' y') (ndiv x' y') = nmul (ndiv x y) (ndiv x y);
  s_abs : forall x x', ng x x' -> nabs x' = nabs x;
  s_swap : forall x x' y y', ng x y' -> ng y x' ->
    (forall t, nltb (nsub x' y') t = nltb (nsub x y) t) /\ is0 (nsub x' y') = is0 (nsub x y) /\
    (is0 (nsub x y) = false -> nsub x' y' = nsub x y);
  s_asym : forall x, nltb x n0 = true -> nltb n0 x = true -> False;
  s_nonzero : forall x y, nltb (nmul x y) n0 = true -> is0 x = false /\ is0 y = false
}.

Lemma F2_length {X Y} (R : X -> Y -> Prop) l l' : Forall2 R l l' -> length l' = length l.
Proof. induction 1; cbn; congruence. Qed.
Lemma F2_zlen {X Y} (R : X -> Y -> Prop) l l' : Forall2 R l l' -> zlen l' = zlen l.
Proof. intros HF. unfold zlen. rewrite (F2_length _ _ _ HF). reflexivity. Qed.
Lemma get_rel {X Y} (R : X -> Y -> Prop) l l' i x : Forall2 R l l' -> py_get l i = Ok x -> exists x', py_get l' i = Ok x' /\ R x x'.
Proof. intros HF E. pose proof (get_like R l l' i HF) as G. rewrite E in G. destruct (py_get l' i) as [y|]; [eauto|contradiction]. Qed.
Lemma take_rel {X Y} (R : X -> Y -> Prop) l l' i x : Forall2 R l l' -> py_take l i = Ok x -> exists x', py_take l' i = Ok x' /\ Forall2 R x x'.
Proof. intros HF E. pose proof (take_like R l l' i HF) as G. rewrite E in G. destruct (py_take l' i) as [y|]; [eauto|contradiction]. Qed.
Lemma map_rel {X Y X' Y'} (R : X -> Y -> Prop) (R' : X' -> Y' -> Prop) f g l l' : Forall2 R l l' -> (forall a b, R a b -> R' (f a) (g b)) -> Forall2 R' (map f l) (map g l').
Proof. intros HF Hfg. induction HF; cbn; constructor; auto. Qed.
Lemma map2_rel {X Y X' Y' X2 Y2} (R : X -> Y -> Prop) (R2 : X2 -> Y2 -> Prop) (R' : X' -> Y' -> Prop) f g l l' k k' : Forall2 R l l' -> Forall2 R2 k k' ->
  (forall a b c d, R a b -> R2 c d -> R' (f a c) (g b d)) -> Forall2 R' (map2 f l k) (map2 g l' k').
Proof. intros HF HK Hfg. revert k k' HK. induction HF; intros k k' HK; [constructor|]. destruct HK; cbn; constructor; auto. Qed.
Lemma map_same {X Y Z} (R : X -> Y -> Prop) (f : X -> Z) (g : Y -> Z) l l' : Forall2 R l l' -> (forall a b, R a b -> g b = f a) -> map g l' = map f l.
Proof. intros HF Hfg. induction HF; cbn; f_equal; auto. Qed.
Lemma map2_same {X Y Z} (R : X -> Y -> Prop) (f : X -> X -> Z) (g : Y -> Y -> Z) l l' k k' : Forall2 R l l' -> Forall2 R k k' ->
  (forall a b c d, R a b -> R c d -> g b d = f a c) -> map2 g l' k' = map2 f l k.
Proof. intros HF HK Hfg. revert k k' HK. induction HF; intros k k' HK; [reflexivity|]. destruct HK; cbn; f_equal; auto. Qed.
Lemma rev_rel {X Y} (R : X -> Y -> Prop) l l' : Forall2 R l l' -> Forall2 R (rev l) (rev l').
Proof. induction 1; cbn; [constructor|]. apply Forall2_app; auto. Qed.
Lemma in_mask {X} (l : list X) m x : In x (mask l m) <-> exists j, nth_error l j = Some x /\ nth_error m j = Some true.
Proof.
  revert m. induction l as [|a l IH]; intros [|b m]; cbn [mask].
  - split; [intros []|]. intros ([|j] & ? & _); discriminate.
  - split; [intros []|]. intros ([|j] & ? & _); discriminate.
  - split; [intros []|]. intros ([|j] & _ & ?); discriminate.
  - destruct b; cbn [In]; rewrite ?IH; split.
    + intros [->|(j & E1 & E2)]; [exists O; auto|exists (S j); auto].
    + intros ([|j] & E1 & E2); [left; cbn in E1; congruence|right; exists j; auto].
    + intros (j & E1 & E2). exists (S j); auto.
    + intros ([|j] & E1 & E2); [discriminate|exists j; auto].
Qed.
Lemma nth_map2 {X Y Z} (f : X -> Y -> Z) l m j z : nth_error (map2 f l m) j = Some z -> exists x y, nth_error l j = Some x /\ nth_error m j = Some y /\ z = f x y.
Proof.
  revert m j. induction l as [|a l IH]; intros [|b m] [|j]; cbn; try discriminate; eauto. intros [= <-]. eauto.
Qed.

Section Neg.
Context {A : Type} `{Num A}.
Variable ng : A -> A -> Prop.
Hypothesis L : symmetric ng.
Notation F2 := (Forall2 ng).

(** ** Extrema *)
Lemma ndiff_ng S S' : F2 S S' -> F2 (ndiff S) (ndiff S').
Proof.
  intros HF. unfold ndiff, adj. apply (map2_rel ng ng); auto.
  - destruct HF; cbn; auto.
  - intros a b c d H1 H2. apply (s_sub _ L); auto.
Qed.
Lemma neg0 x x' : ng x x' -> nltb x' n0 = nltb n0 x /\ nltb n0 x' = nltb x n0.
Proof. intros HX. split; apply (s_ltb _ L); auto using (s_zero _ L). Qed.
Lemma strict_ng d d' : F2 d d' -> strict_max_idx d' = strict_min_idx d /\ strict_min_idx d' = strict_max_idx d.
Proof.
  intros HF. unfold strict_max_idx, strict_min_idx. split; do 2 f_equal; symmetry; apply (adj_like ng); auto; intros a b c e H1 H2;
    rewrite (s_prod _ L a b c e) by auto; destruct (neg0 a b H1) as [E1 E2]; rewrite ?E1, ?E2; reflexivity.
Qed.
Lemma extrema_ng S S' M m : F2 S S' -> extrema_idx S = Ok (M, m) -> extrema_idx S' = Ok (m, M).
Proof.
  intros HS. unfold extrema_idx. cbv zeta. pose proof (ndiff_ng _ _ HS) as HD. destruct (strict_ng _ _ HD) as [-> ->].
  rewrite (map_same ng is0 is0 _ _ HD) by (intros; apply (s_is0 _ L); auto). rewrite (F2_zlen _ _ _ HS).
  destruct (existsb _ (map is0 (ndiff S))).
  2:{ intros E. apply ok_inv in E. apply pair_inv in E as [-> ->]. reflexivity. }
  destruct (drop_last_run _ _) as [|r rs]; [intros E; apply ok_inv in E; apply pair_inv in E as [-> ->]; reflexivity|]. set (runs := r :: rs). intros E.
  apply bind_ok in E as (b & E1 & E). apply bind_ok in E as (c & E2 & E).
  destruct (take_rel ng _ _ _ _ HD E1) as (b' & -> & Hb). cbn [bind]. destruct (take_rel ng _ _ _ _ HD E2) as (c' & -> & Hc). cbn [bind].
  rewrite (map2_same ng (fun b a => nltb b n0 && nltb n0 a) (fun b a => nltb n0 b && nltb a n0) _ _ _ _ Hb Hc)
    by (intros x y u v H1 H2; destruct (neg0 x y H1) as [N1 N2]; destruct (neg0 u v H2) as [N3 N4]; rewrite ?N1, ?N2, ?N3, ?N4; reflexivity).
  rewrite (map2_same ng (fun b a => nltb n0 b && nltb a n0) (fun b a => nltb b n0 && nltb n0 a) _ _ _ _ Hb Hc)
    by (intros x y u v H1 H2; destruct (neg0 x y H1) as [N1 N2]; destruct (neg0 u v H2) as [N3 N4]; rewrite ?N1, ?N2, ?N3, ?N4; reflexivity).
  apply ok_inv in E. apply pair_inv in E as [-> ->]. reflexivity.
Qed.
Lemma zc_ng S S' : F2 S S' -> zero_crossings S' = zero_crossings S.
Proof.
  intros HS. unfold zero_crossings. cbv zeta.
  rewrite <- (adj_like ng (fun a b => nltb (nmul a b) n0) (fun a b => nltb (nmul a b) n0) S S' HS) by (intros; symmetry; apply (s_prod _ L); auto).
  rewrite (map_same ng is0 is0 _ _ HS) by (intros; apply (s_is0 _ L); auto). reflexivity.
Qed.
Definition swapped (e e' : extrema_out A) : Prop :=
  max_pos e' = min_pos e /\ min_pos e' = max_pos e /\ F2 (max_val e) (min_val e') /\ F2 (min_val e) (max_val e') /\ indzer e' = indzer e.
Lemma find_ng T S S' e : F2 S S' -> find_extrema Simple T S = Ok e -> exists e', find_extrema Simple T S' = Ok e' /\ swapped e e'.
Proof.
  intros HS. cbn [find_extrema]. unfold find_extrema_simple. intros E. apply bind_ok in E as ([M m] & E0 & E).
  rewrite (extrema_ng _ _ _ _ HS E0). cbn [bind]. apply bind_ok in E as (mp & E1 & E). apply bind_ok in E as (mv & E2 & E).
  apply bind_ok in E as (np & E3 & E). apply bind_ok in E as (nv & E4 & E). apply ok_inv in E. subst e.
  destruct (take_rel ng _ _ _ _ HS E2) as (mv' & -> & Hm). destruct (take_rel ng _ _ _ _ HS E4) as (nv' & -> & Hn).
  rewrite E1, E3. cbn [bind]. eexists. split; [reflexivity|]. unfold swapped. cbn. rewrite (zc_ng _ _ HS). auto 6.
Qed.
Lemma swapped_no e e' : swapped e e' -> ext_no e' = ext_no e.
Proof. intros (E1 & E2 & _). unfold ext_no. rewrite E1, E2. lia. Qed.

(** No index is both a maximum and a minimum. *)
Definition strict_at (d : list A) (i : Z) : Prop := 1 <= i /\ exists x y, nth_error d (Z.to_nat (i - 1)) = Some x /\ nth_error d (Z.to_nat i) = Some y /\ nltb (nmul x y) n0 = true.
Lemma strict_In (P : A -> bool) d i : In i (map (fun k => k + 1) (nonzero (adj (fun d1 d2 => nltb (nmul d1 d2) n0 && P d1) d))) ->
  1 <= i /\ exists x y, nth_error d (Z.to_nat (i - 1)) = Some x /\ nth_error d (Z.to_nat i) = Some y /\ nltb (nmul x y) n0 = true /\ P x = true.
Proof.
  intros HI. apply in_map_iff in HI as (j & <- & HI). apply nonzero_In in HI as [Hj HI]. split; [lia|].
  unfold adj in HI. apply nth_map2 in HI as (x & y & E1 & E2 & E3). symmetry in E3. apply andb_true_iff in E3 as [E3 E4].
  exists x, y. replace (j + 1 - 1) with j by lia. split; auto. split; auto.
  destruct d as [|a d]; [destruct (Z.to_nat j); discriminate|]. cbn [tl] in E2. replace (Z.to_nat (j + 1)) with (S (Z.to_nat j)) by lia. exact E2.
Qed.
Definition plateau_at (d : list A) (P : A -> bool) (i : Z) : Prop :=
  exists a b x, isrun (zmask (map is0 d)) a b /\ i = round_half (b + a) /\ py_get d (a - 1) = Ok x /\ P x = true.
Lemma drop_sub n l r : In r (drop_last_run n (drop_first_run l)) -> In r l.
Proof.
  intros HI. assert (H1 : In r (drop_first_run l)).
  { unfold drop_last_run in HI. destruct (rev (drop_first_run l)) as [|[a b] q] eqn:E; [contradiction|].
    destruct (b =? n - 1); auto. rewrite in_rev, E. right. apply in_rev in HI. exact HI. }
  unfold drop_first_run in H1. destruct l as [|[a b] q]; auto. destruct (a =? 1); auto. right. auto.
Qed.
Lemma mid_between a b : a < b -> a <= round_half (b + a) <= b.
Proof.
  intros Hab. unfold round_half. pose proof (Z.div_mod (b + a) 2 ltac:(lia)). pose proof (Z.mod_pos_bound (b + a) 2 ltac:(lia)).
  destruct (Z.even (b + a)) eqn:E1; [lia|]. destruct (Z.even ((b + a) / 2)); [lia|].
  assert ((b + a) mod 2 = 1) by (rewrite Zmod_odd, <- Z.negb_even, E1; reflexivity). lia.
Qed.
Lemma take_nth {X} (l : list X) idx r j x : py_take l idx = Ok r -> nth_error r j = Some x -> exists i, nth_error idx j = Some i /\ py_get l i = Ok x.
Proof.
  unfold py_take. revert r j. induction idx as [|i idx IH]; intros r j E Hn; cbn [mapM] in E.
  - apply ok_inv in E. subst r. destruct j; discriminate.
  - apply bind_ok in E as (y & E1 & E). apply bind_ok in E as (r' & E2 & E). apply ok_inv in E. subst r. destruct j as [|j]; cbn in Hn.
    + injection Hn as ->. exists i. auto.
    + apply (IH _ _ E2 Hn).
Qed.
Lemma extrema_where S M m : extrema_idx S = Ok (M, m) ->
  (forall i, In i M -> (1 <= i /\ exists x y, nth_error (ndiff S) (Z.to_nat (i - 1)) = Some x /\ nth_error (ndiff S) (Z.to_nat i) = Some y /\ nltb (nmul x y) n0 = true /\ nltb n0 x = true)
    \/ plateau_at (ndiff S) (fun x => nltb n0 x) i) /\
  (forall i, In i m -> (1 <= i /\ exists x y, nth_error (ndiff S) (Z.to_nat (i - 1)) = Some x /\ nth_error (ndiff S) (Z.to_nat i) = Some y /\ nltb (nmul x y) n0 = true /\ nltb x n0 = true)
    \/ plateau_at (ndiff S) (fun x => nltb x n0) i).
Proof.
  unfold extrema_idx. cbv zeta. set (d := ndiff S). clearbody d.
  assert (SM : forall i, In i (strict_max_idx d) -> 1 <= i /\ exists x y, nth_error d (Z.to_nat (i - 1)) = Some x /\ nth_error d (Z.to_nat i) = Some y /\ nltb (nmul x y) n0 = true /\ nltb n0 x = true)
    by (intros i Hi; exact (strict_In (fun x => nltb n0 x) d i Hi)).
  assert (Sm : forall i, In i (strict_min_idx d) -> 1 <= i /\ exists x y, nth_error d (Z.to_nat (i - 1)) = Some x /\ nth_error d (Z.to_nat i) = Some y /\ nltb (nmul x y) n0 = true /\ nltb x n0 = true)
    by (intros i Hi; exact (strict_In (fun x => nltb x n0) d i Hi)).
  destruct (existsb _ (map is0 d)).
  2:{ intros E. apply ok_inv in E. apply pair_inv in E as [-> ->]. auto. }
  destruct (drop_last_run _ _) as [|r rs] eqn:Er; [intros E; apply ok_inv in E; apply pair_inv in E as [-> ->]; auto|].
  rewrite <- Er. set (runs := drop_last_run _ _) in *. clear Er r rs. intros E.
  apply bind_ok in E as (b & E1 & E). apply bind_ok in E as (c & E2 & E).
  assert (G : forall (f : A -> A -> bool) (P : A -> bool) i, (forall x y, f x y = true -> P x = true) ->
    In i (mask (map (fun r => round_half (snd r + fst r)) runs) (map2 f b c)) -> plateau_at d P i).
  { intros f P i Hf Hi. apply in_mask in Hi as (j & F1 & F2). apply nth_map2 in F2 as (x & y & F2 & F3 & F4).
    destruct (take_nth _ _ _ _ _ E1 F2) as (k & F5 & F6). rewrite nth_error_map in F1, F5. destruct (nth_error runs j) as [[u v]|] eqn:F7; [|discriminate].
    cbn in F1, F5. injection F1 as <-. injection F5 as <-. exists u, v, x.
    apply nth_error_In in F7. unfold runs in F7. apply drop_sub in F7. rewrite runs_spec in F7. apply runs_In in F7. split; auto. split; auto. split; auto.
    apply (Hf x y). auto. }
  apply ok_inv in E. apply pair_inv in E as [-> ->]. split; intros i Hi.
  - destruct (existsb _ _) in Hi; auto. apply (proj1 (zsort_In _ _)) in Hi. apply in_app_iff in Hi as [Hi|Hi]; auto. right.
    eapply G; [|exact Hi]. intros x y Hf. apply andb_true_iff in Hf. tauto.
  - destruct (existsb _ _) in Hi; auto. apply (proj1 (zsort_In _ _)) in Hi. apply in_app_iff in Hi as [Hi|Hi]; auto. right.
    eapply G; [|exact Hi]. intros x y Hf. apply andb_true_iff in Hf. tauto.
Qed.
Lemma plateau_flat d P i : plateau_at d P i -> 0 <= i /\ ~ (1 <= i /\ exists x y, nth_error d (Z.to_nat (i - 1)) = Some x /\ nth_error d (Z.to_nat i) = Some y /\ nltb (nmul x y) n0 = true).
Proof.
  intros (a & b & x & HR & -> & _). pose proof (isrun_bounds _ _ _ HR) as [HB _]. destruct HR as (R1 & R2 & _).
  pose proof (mid_between a b R1) as Hm. set (i := round_half (b + a)) in *. split; [lia|]. intros (H1 & u & v & E1 & E2 & E3).
  apply (s_nonzero _ L) in E3 as [E3 E4]. destruct (Z.eq_dec i b) as [Eb|Eb].
  - specialize (R2 (i - 1) ltac:(lia)). apply zmask_true in R2 as [_ R2]. rewrite nth_error_map, E1 in R2. cbn in R2. congruence.
  - specialize (R2 i ltac:(lia)). apply zmask_true in R2 as [_ R2]. rewrite nth_error_map, E2 in R2. cbn in R2. congruence.
Qed.
Lemma extrema_disjoint S M m i : extrema_idx S = Ok (M, m) -> In i M -> In i m -> False.
Proof.
  intros E HM Hm. destruct (extrema_where _ _ _ E) as [G1 G2]. specialize (G1 i HM). specialize (G2 i Hm).
  destruct G1 as [(A1 & x & y & A2 & A3 & A4 & A5)|G1], G2 as [(B1 & x' & y' & B2 & B3 & B4 & B5)|G2].
  - rewrite A2 in B2. injection B2 as <-. exact (s_asym _ L _ B5 A5).
  - apply plateau_flat in G2 as [_ G2]. apply G2. split; auto. exists x, y. auto.
  - apply plateau_flat in G1 as [_ G1]. apply G1. split; auto. exists x', y'. auto.
  - destruct G1 as (a & b & x & R1 & -> & E1 & P1). destruct G2 as (a' & b' & x' & R2 & E0 & E2 & P2).
    assert (Hab : a < b /\ a' < b') by (destruct R1, R2; auto). pose proof (mid_between a b (proj1 Hab)). pose proof (mid_between a' b' (proj2 Hab)).
    assert (a = a'). { destruct (Z.lt_trichotomy a a') as [D|[D|D]]; auto.
      - pose proof (isrun_disjoint _ _ _ _ _ R1 R2 D). lia.
      - pose proof (isrun_disjoint _ _ _ _ _ R2 R1 D). lia. }
    subst a'. rewrite E1 in E2. injection E2 as <-. exact (s_asym _ L _ P2 P1).
Qed.
Lemma extrema_nonneg S M m i : extrema_idx S = Ok (M, m) -> In i M \/ In i m -> 0 <= i.
Proof.
  intros E HI. destruct (extrema_where _ _ _ E) as [G1 G2]. destruct HI as [HI|HI]; [specialize (G1 i HI)|specialize (G2 i HI)].
  - destruct G1 as [(A1 & _)|G1]; [lia|]. apply plateau_flat in G1. tauto.
  - destruct G2 as [(A1 & _)|G2]; [lia|]. apply plateau_flat in G2. tauto.
Qed.
(** A time axis on which the code can tell the samples apart. *)
Definition apart_times (T : list A) : Prop := forall i j x y, nth_error T i = Some x -> nth_error T j = Some y -> ntrunc x = ntrunc y -> i = j.
Lemma py_get_nat {X} (l : list X) i x : 0 <= i -> py_get l i = Ok x -> nth_error l (Z.to_nat i) = Some x.
Proof. intros Hi. unfold py_get. replace (i <? 0) with false by lia. cbv zeta. replace (i <? 0) with false by lia. destruct (nth_error _ _); congruence. Qed.
Lemma hd_take {X} (l : list X) idx r : py_take l idx = Ok r -> hd_error r = match idx with [] => None | i :: _ => match py_get l i with Ok x => Some x | _ => None end end.
Proof. destruct idx as [|i idx]; unfold py_take; cbn [mapM]; intros E; [apply ok_inv in E; subst; reflexivity|]. apply bind_ok in E as (y & E1 & E). rewrite E1. apply bind_ok in E as (q & _ & E). apply ok_inv in E. subst. reflexivity. Qed.
Lemma take_rev {X} (l : list X) idx r : py_take l idx = Ok r -> py_take l (rev idx) = Ok (rev r).
Proof.
  unfold py_take. revert r. induction idx as [|i idx IH]; intros r E; cbn [mapM] in E; [apply ok_inv in E; subst; reflexivity|].
  apply bind_ok in E as (y & E1 & E). apply bind_ok in E as (q & E2 & E). apply ok_inv in E. subst r. cbn [rev].
  specialize (IH _ E2). clear E2. revert IH. generalize (rev idx), (rev q). induction l0 as [|k l0 IH]; intros q0 E; cbn [mapM app] in *.
  - apply ok_inv in E. subst q0. rewrite E1. reflexivity.
  - apply bind_ok in E as (z & F1 & E). apply bind_ok in E as (q1 & F2 & E). apply ok_inv in E. subst q0. rewrite F1. cbn [bind]. rewrite (IH _ F2). reflexivity.
Qed.
Lemma heads_apart T S e : apart_times T -> find_extrema Simple T S = Ok e -> 2 < ext_no e ->
  hd_error (map ntrunc (max_pos e)) <> hd_error (map ntrunc (min_pos e)) /\
  hd_error (rev (map ntrunc (max_pos e))) <> hd_error (rev (map ntrunc (min_pos e))).
Proof.
  intros HT E H3. cbn [find_extrema] in E. unfold find_extrema_simple in E. apply bind_ok in E as ([M m] & E0 & E).
  apply bind_ok in E as (mp & E1 & E). apply bind_ok in E as (mv & E2 & E).
  apply bind_ok in E as (np & E3 & E). apply bind_ok in E as (nv & E4 & E). apply ok_inv in E. subst e. unfold ext_no in H3. cbn [max_pos min_pos] in *.
  assert (G : forall M' m' mp' np', (forall i, In i M' -> In i M) -> (forall i, In i m' -> In i m) -> py_take T M' = Ok mp' -> py_take T m' = Ok np' ->
    zlen mp' + zlen np' = zlen mp + zlen np -> hd_error (map ntrunc mp') <> hd_error (map ntrunc np')).
  { intros M' m' mp' np' HM Hm F1 F2 HL X. pose proof (hd_take _ _ _ F1) as G1. pose proof (hd_take _ _ _ F2) as G2.
    destruct mp' as [|x mp'], np' as [|y np']; cbn [map hd_error] in X; try discriminate.
    - unfold zlen in *. cbn [length] in HL. lia.
    - injection X as X. cbn [hd_error] in G1, G2. destruct M' as [|i M']; [discriminate|]. destruct m' as [|j m']; [discriminate|].
      destruct (py_get T i) as [x'|] eqn:G3; [|discriminate]. destruct (py_get T j) as [y'|] eqn:G4; [|discriminate]. injection G1 as <-. injection G2 as <-.
      assert (Hi : In i M) by (apply HM; left; auto). assert (Hj : In j m) by (apply Hm; left; auto).
      pose proof (extrema_nonneg _ _ _ i E0 (or_introl Hi)) as Ni. pose proof (extrema_nonneg _ _ _ j E0 (or_intror Hj)) as Nj.
      apply py_get_nat in G3, G4; auto. pose proof (HT _ _ _ _ G3 G4 X) as Eq. assert (i = j) by lia. subst j. eapply extrema_disjoint; eauto. }
  split.
  - apply (G M m mp np); auto.
  - rewrite <- !map_rev. apply (G (rev M) (rev m)); auto; try (intros i; rewrite <- in_rev; auto); try (apply take_rev; auto). unfold zlen. rewrite !rev_length. reflexivity.
Qed.
End Neg.
