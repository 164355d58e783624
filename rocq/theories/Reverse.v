(** * Reverse: EMD in 'simple' mode on a signal read backwards (exact arithmetic). *)
From Verif Require Import PyFacts QcFacts Runs Emd Spec EmdProofs EmdExact EmdSimple ExtremaProofs ExtremaSpec PrepareProofs SplineProofs EmdStop EmdSym RevSpec.
From Coq Require Import ZifyBool ZifyNat QArith Qcanon.
Open Scope Z_scope.

(** ** Lists read backwards *)
Lemma map2_rev {X Y Z} (f : X -> Y -> Z) l m : length l = length m -> map2 f (rev l) (rev m) = rev (map2 f l m).
Proof.
  revert m. induction l as [|x l IH]; destruct m as [|y m]; cbn [length]; intros E; try discriminate; auto.
  cbn [rev map2]. rewrite <- IH by lia.
  assert (G : forall (a : list X) (b : list Y), length a = length b -> map2 f (a ++ [x]) (b ++ [y]) = map2 f a b ++ [f x y]).
  { induction a as [|u a IHa]; destruct b as [|w b]; cbn [length]; intros; try discriminate; auto.
    cbn [map2 app]. f_equal. apply IHa. lia. }
  apply G. rewrite !rev_length. lia.
Qed.
Lemma adj_rev {X Y} (f : X -> X -> Y) l : adj f (rev l) = rev (adj (fun a b => f b a) l).
Proof.
  assert (A : forall (h : X -> X -> Y) l y x, adj h (l ++ [y; x]) = adj h (l ++ [y]) ++ [h y x]).
  { intros h. induction l0 as [|z l0 IH]; intros y x; [reflexivity|].
    destruct l0 as [|w l0]; [reflexivity|]. change ((z :: w :: l0) ++ [y; x]) with (z :: ((w :: l0) ++ [y; x])).
    change (adj h (z :: (w :: l0) ++ [y; x])) with (h z w :: adj h ((w :: l0) ++ [y; x])). rewrite IH. reflexivity. }
  induction l as [|x l IH]; auto. destruct l as [|y l]; auto.
  change (adj (fun a b => f b a) (x :: y :: l)) with (f y x :: adj (fun a b => f b a) (y :: l)).
  cbn [rev] in *. rewrite <- IH, <- app_assoc. cbn [app]. apply A.
Qed.

Section Axis.
Variable n : nat.
Let N := Z.of_nat n.
Definition rv (i : Z) : Z := Z.of_nat n - 1 - i.
Definition rvl (l : list Z) : list Z := map rv (rev l).
Definition L : Qc := Qc_ofZ (Z.of_nat n - 1).

Lemma rv_rv i : rv (rv i) = i.
Proof. unfold rv. lia. Qed.
Lemma rvl_rvl l : rvl (rvl l) = l.
Proof.
  unfold rvl. rewrite <- map_rev, rev_involutive, map_map. rewrite <- map_id. apply map_ext. apply rv_rv.
Qed.
Lemma zlen_rvl l : zlen (rvl l) = zlen l.
Proof. unfold rvl. rewrite zlen_map, zlen_rev. reflexivity. Qed.
Lemma rvl_nil l : rvl l = [] <-> l = [].
Proof. split; [|intros ->; reflexivity]. intros E. rewrite <- (rvl_rvl l), E. reflexivity. Qed.
Lemma rvl_app l m : rvl (l ++ m) = rvl m ++ rvl l.
Proof. unfold rvl. rewrite rev_app_distr, map_app. reflexivity. Qed.
Lemma rvl_rev l : rvl (rev l) = rev (rvl l).
Proof. unfold rvl. rewrite map_rev. reflexivity. Qed.
Lemma In_rvl l i : In i (rvl l) <-> In (rv i) l.
Proof.
  unfold rvl. rewrite in_map_iff. split.
  - intros (x & <- & Hx). rewrite rv_rv. apply in_rev. auto.
  - intros Hx. exists (rv i). split; [apply rv_rv|]. apply in_rev. rewrite rev_involutive. auto.
Qed.
Lemma rvl_increasing l : zincreasing l -> zincreasing (rvl l).
Proof.
  induction l as [|x l IH]; intros H; auto. destruct H as [H1 H2].
  change (x :: l) with ([x] ++ l). rewrite rvl_app. apply zincreasing_app. split; auto.
  split; [cbn; split; auto; intros ? []|]. intros a b Ha Hb. apply In_rvl in Ha. apply In_rvl in Hb.
  destruct Hb as [Hb|[]]. apply H1 in Ha. rewrite Hb in Ha. unfold rv in Ha. lia.
Qed.
Lemma hd_rvl l : l <> [] -> hd 0 (rvl l) = rv (last l 0).
Proof.
  destruct l as [|x l _] using rev_ind; [congruence|]. intros _. rewrite rvl_app, last_last. reflexivity.
Qed.
Lemma last_rvl l : l <> [] -> last (rvl l) 0 = rv (hd 0 l).
Proof.
  destruct l as [|x l]; [congruence|]. intros _. change (x :: l) with ([x] ++ l). rewrite rvl_app.
  cbn [rvl rev map app hd]. apply last_last.
Qed.

Lemma sample_rev S i : length S = n -> 0 <= i < N -> sample (rev S) i = sample S (rv i).
Proof.
  intros HS Hi. unfold sample, rv. rewrite rev_nth by (unfold N in Hi; lia). f_equal. unfold N in Hi. lia.
Qed.

(** ** Slices *)
Lemma skip_map {X Y} (f : X -> Y) l k : skipn k (map f l) = map f (skipn k l).
Proof. revert k; induction l; destruct k; cbn; auto. Qed.
Lemma from_rvl l b : 0 <= b -> py_from (rvl l) (Z.max (zlen l - b) 0) = rvl (py_slice l 0 (Z.min (zlen l) b)).
Proof.
  intros Hb. pose proof (zlen_nonneg l). rewrite py_from_in by (rewrite zlen_rvl; lia).
  rewrite py_slice_in by lia. unfold rvl. rewrite skip_map, skipn_rev. f_equal. f_equal. cbn [Z.to_nat skipn].
  f_equal. unfold zlen in *. lia.
Qed.
Lemma init_rvl l b : 1 <= b -> l <> [] ->
  py_slice (rvl l) (Z.max (zlen l - b) 0) (-1) = rvl (py_slice l 1 (Z.min (zlen l) b)).
Proof.
  intros Hb Hl. pose proof (zlen_nonneg l). assert (0 < zlen l) by (destruct l; [congruence|rewrite zlen_cons; pose proof (zlen_nonneg l); lia]).
  rewrite py_slice_init by (rewrite zlen_rvl; lia). rewrite py_slice_in by lia. rewrite zlen_rvl.
  unfold rvl. rewrite skip_map, firstn_map, skipn_rev, firstn_rev. f_equal. f_equal.
  rewrite firstn_length, skipn_firstn_comm. unfold zlen in *.
  f_equal; [lia|]. change (Z.to_nat 1) with 1%nat. f_equal. lia.
Qed.

(** ** Boundary points *)
Definition trl (t : list Qc) : list Qc := map (fun u => L - u)%Qc (rev t).
Lemma trl_app a b : trl (a ++ b) = trl b ++ trl a.
Proof. unfold trl. rewrite rev_app_distr, map_app. reflexivity. Qed.
Lemma trl_length a : length (trl a) = length a.
Proof. unfold trl. rewrite map_length, rev_length. reflexivity. Qed.

Lemma refl_rv c l : refl_pos (rv c) (rvl l) = trl (refl_pos c l).
Proof.
  unfold refl_pos, rvl, trl. rewrite <- map_rev, !map_map. apply map_ext. intros i. unfold L, rv.
  rewrite <- Qc_ofZ_sub. f_equal. lia.
Qed.

Lemma or_default_rvl x d : or_default (rvl x) (rvl d) = rvl (or_default x d).
Proof.
  destruct x as [|y x]; [reflexivity|]. cbn [or_default]. destruct (rvl (y :: x)) eqn:E; auto.
  apply (proj1 (rvl_nil _)) in E. discriminate.
Qed.
Lemma ofZ_ltb a b : Qc_ltb (Qc_ofZ a) (Qc_ofZ b) = (a <? b).
Proof.
  destruct (Z.ltb_spec a b).
  - apply Qc_ltb_lt, Qc_ofZ_lt. auto.
  - apply Qc_ltb_ge, Qc_ofZ_le. auto.
Qed.

Section Bounds.
Variables (S : list Qc) (M m : list Z) (nb : Z).
Hypothesis HS : length S = n.
Hypothesis HnM : M <> [].
Hypothesis Hnm : m <> [].
Hypothesis HrM : forall x, In x M -> 0 <= x < N.
Hypothesis Hrm : forall x, In x m -> 0 <= x < N.
Hypothesis Hd : forall x, In x M -> In x m -> False.
Hypothesis Hnb : 1 <= nb.

Let hM := HrM _ (hd_In M HnM).
Let hm := Hrm _ (hd_In m Hnm).
Let zS : zlen S = N.
Proof. unfold zlen, N. congruence. Qed.
Let zS' : zlen (rev S) = N.
Proof. rewrite zlen_rev. apply zS. Qed.
Let h_ne : hd 0 M <> hd 0 m.
Proof. intros E. apply (Hd (hd 0 M)); [apply hd_In; auto|rewrite E; apply hd_In; auto]. Qed.

Lemma right_rv lmax lmin c : left_bound nb S M m = Ok (lmax, lmin, c) ->
  right_bound nb (rev S) (rvl M) (rvl m) = Ok (rvl lmax, rvl lmin, rv c).
Proof.
  assert (NM : rvl M <> []) by (intros E; apply (proj1 (rvl_nil _)) in E; auto).
  assert (Nm : rvl m <> []) by (intros E; apply (proj1 (rvl_nil _)) in E; auto).
  unfold left_bound, right_bound. cbv zeta. rewrite !get_head by auto. rewrite !get_last by auto. cbn [bind].
  rewrite (get_sample S 0) by lia. rewrite get_sample_last by lia. cbn [bind].
  rewrite !last_rvl by auto. rewrite zS', !zlen_rvl.
  rewrite sample_rev by (auto; lia). replace (rv (N - 1)) with 0 by (unfold rv, N; lia).
  replace (rv (hd 0 M) <? rv (hd 0 m)) with (negb (hd 0 M <? hd 0 m)) by (unfold rv; lia).
  assert (RM : 0 <= rv (hd 0 M) < N) by (unfold rv, N in *; lia).
  assert (Rm : 0 <= rv (hd 0 m) < N) by (unfold rv, N in *; lia).
  assert (R0 : rvl [0] = [N - 1]) by (unfold rvl, rv, N; cbn [rev app map]; f_equal; lia).
  destruct (hd 0 M <? hd 0 m); cbn [negb].
  - rewrite !get_sample by lia. cbn [bind]. rewrite sample_rev by auto. rewrite rv_rv.
    destruct (nltb _ _); intros E; apply ok_inv in E; apply pair_inv in E as [E E3]; apply pair_inv in E as [E1 E2];
      rewrite E1, E2, E3; rewrite ?rvl_app, !rvl_rev.
    + rewrite <- Z.sub_add_distr, init_rvl, from_rvl by (auto; lia). rewrite Z.add_0_r. reflexivity.
    + replace (zlen m - nb + 1) with (zlen m - (nb - 1)) by lia.
      rewrite !from_rvl by lia. rewrite R0, rev_app_distr. cbn [rev app].
      repeat f_equal; unfold rv, N; lia.
  - rewrite !get_sample by lia. cbn [bind]. rewrite sample_rev by auto. rewrite rv_rv.
    destruct (nltb _ _); intros E; apply ok_inv in E; apply pair_inv in E as [E E3]; apply pair_inv in E as [E1 E2];
      rewrite E1, E2, E3; rewrite ?rvl_app, !rvl_rev.
    + rewrite <- Z.sub_add_distr, init_rvl, from_rvl by (auto; lia). rewrite Z.add_0_r. reflexivity.
    + replace (zlen M - nb + 1) with (zlen M - (nb - 1)) by lia.
      rewrite !from_rvl by lia. rewrite R0, rev_app_distr. cbn [rev app].
      repeat f_equal; unfold rv, N; lia.
Qed.

Lemma dec_rvl l : l <> [] -> rvl l <> [].
Proof. intros H E. apply (proj1 (rvl_nil _)) in E. auto. Qed.

Lemma mirror_right_rv lmax lmin c t1 l1 t2 l2 : 0 <= c < N ->
  lmax <> [] -> lmin <> [] -> (forall i, In i lmax -> 0 <= i < N) -> (forall i, In i lmin -> 0 <= i < N) ->
  mirror_left nb (tz n) M m lmax lmin c = Ok (t1, l1, t2, l2) ->
  mirror_right nb (tz n) N (rvl M) (rvl m) (rvl lmax) (rvl lmin) (rv c) = Ok (trl t1, rvl l1, trl t2, rvl l2).
Proof.
  intros Hc N1 N2 R1 R2. unfold mirror_left, mirror_right. cbv zeta.
  assert (RR : forall l, (forall i, In i l -> 0 <= i < N) -> forall i, In i (rvl l) -> 0 <= i < N).
  { intros l Hl i Hi. apply In_rvl, Hl in Hi. unfold rv, N in *. lia. }
  assert (Rc : 0 <= rv c < N) by (unfold rv, N in *; lia).
  rewrite !mirror_tz by first [assumption | apply RR; assumption | lia].
  cbn [bind]. rewrite get_tz by lia. rewrite get_tz_last by (unfold N in *; lia). cbn [bind].
  rewrite !get_head_map by auto. rewrite !get_last_map by (apply dec_rvl; auto). cbn [bind].
  rewrite !last_rvl by auto. num_qc. rewrite !ofZ_ltb.
  set (b1 := 0 <? 2 * c - hd 0 lmin). set (b2 := 0 <? 2 * c - hd 0 lmax).
  replace (2 * rv c - rv (hd 0 lmin) <? Z.of_nat n - 1) with b1 by (unfold b1, rv; lia).
  replace (2 * rv c - rv (hd 0 lmax) <? Z.of_nat n - 1) with b2 by (unfold b2, rv; lia).
  assert (EB : (if b1 then Ok true else Ok b2) = Ok (b1 || b2)) by (destruct b1; reflexivity).
  rewrite EB. cbn [bind]. destruct (b1 || b2).
  - rewrite get_head by auto. rewrite get_last by (apply dec_rvl; auto). cbn [bind]. rewrite last_rvl by auto.
    replace (rv c =? rv (hd 0 M)) with (c =? hd 0 M) by (unfold rv; lia).
    replace (rv c =? N - 1) with (c =? 0) by (unfold rv, N; lia).
    rewrite !zlen_rvl, !from_rvl, <- !rvl_rev by lia.
    destruct (c =? 0); [discriminate|].
    assert (SM : forall i, In i (rev (py_slice M 0 (Z.min (zlen M) nb))) -> 0 <= i < N).
    { intros i Hi. rewrite <- in_rev in Hi. apply py_slice_incl in Hi. auto. }
    assert (Sm : forall i, In i (rev (py_slice m 0 (Z.min (zlen m) nb))) -> 0 <= i < N).
    { intros i Hi. rewrite <- in_rev in Hi. apply py_slice_incl in Hi. auto. }
    assert (R0 : N - 1 = rv 0) by (unfold rv, N; lia).
    assert (F : forall c l, map (fun i => Qc_ofZ (2 * c - i)) l = refl_pos c l) by reflexivity.
    destruct (c =? hd 0 M); rewrite !mirror_tz by (auto; lia); cbn [bind]; intros E; apply ok_inv in E;
      apply pair_inv in E as [E ->]; apply pair_inv in E as [E ->]; apply pair_inv in E as [-> ->];
      rewrite R0, !mirror_tz by first [apply RR; assumption | unfold rv, N in *; lia]; cbn [bind]; rewrite !F, !refl_rv; reflexivity.
  - assert (F : forall c l, map (fun i => Qc_ofZ (2 * c - i)) l = refl_pos c l) by reflexivity.
    intros E. apply ok_inv in E.
    apply pair_inv in E as [E ->]; apply pair_inv in E as [E ->]; apply pair_inv in E as [-> ->].
    rewrite !F, !refl_rv. reflexivity.
Qed.
End Bounds.

Lemma combine_rev {X Y} (a : list X) (b : list Y) : length a = length b -> combine (rev a) (rev b) = rev (combine a b).
Proof.
  revert b. induction a as [|x a IH]; destruct b as [|y b]; cbn [length]; intros E; try discriminate; auto.
  cbn [rev combine]. rewrite combine_app by (rewrite !rev_length; lia). rewrite IH by lia. reflexivity.
Qed.
Lemma combine_map_l {X Y Z} (f : X -> Z) (a : list X) (b : list Y) :
  combine (map f a) b = map (fun p => (f (fst p), snd p)) (combine a b).
Proof. revert b. induction a as [|x a IH]; destruct b; cbn; f_equal; auto. Qed.
Lemma turned_combine t z : length t = length z -> combine (trl t) (rev z) = turned L (combine t z).
Proof. intros E. unfold trl, turned. rewrite combine_map_l, combine_rev by auto. reflexivity. Qed.
Lemma turned_app l a b : turned l (a ++ b) = turned l b ++ turned l a.
Proof. unfold turned. rewrite rev_app_distr, map_app. reflexivity. Qed.

Lemma take_rvl S l : length S = n -> (forall i, In i l -> 0 <= i < N) ->
  py_take (rev S) (rvl l) = Ok (rev (map (sample S) l)).
Proof.
  intros HS Hl. rewrite take_samples.
  - f_equal. unfold rvl. rewrite map_map, <- map_rev. apply map_ext_in. intros i Hi. apply in_rev in Hi. apply Hl in Hi.
    rewrite sample_rev by (auto; unfold rv, N in *; lia). rewrite rv_rv. reflexivity.
  - intros i Hi. apply In_rvl, Hl in Hi. unfold zlen. rewrite rev_length, HS. unfold rv, N in *. lia.
Qed.
Lemma rev_tz : trl (tz n) = tz n.
Proof.
  apply (nth_ext _ _ 0%Qc 0%Qc); rewrite trl_length; auto. intros i Hi. rewrite tz_length in Hi.
  assert (E : forall k, (k < n)%nat -> nth k (tz n) 0%Qc = Qc_ofZ (Z.of_nat k)).
  { intros k Hk. pose proof (sample_tz n (Z.of_nat k) ltac:(lia)) as E. unfold sample in E. rewrite Nat2Z.id in E. exact E. }
  unfold trl. rewrite (nth_indep _ 0%Qc (L - 0)%Qc) by (rewrite map_length, rev_length, tz_length; auto).
  rewrite (map_nth (fun u => L - u)%Qc). rewrite rev_nth by (rewrite tz_length; auto). rewrite tz_length, !E by lia.
  unfold L. rewrite <- Qc_ofZ_sub. f_equal. lia.
Qed.

Lemma assemble_rv S tl l ind tr r pts : length S = n ->
  (forall i, In i l -> 0 <= i < N) -> (forall i, In i ind -> 0 <= i < N) -> (forall i, In i r -> 0 <= i < N) ->
  length tl = length l -> length tr = length r ->
  assemble (tz n) S tl l ind tr r = Ok pts ->
  assemble (tz n) (rev S) (trl tr) (rvl r) (rvl ind) (trl tl) (rvl l) = Ok (turned L pts).
Proof.
  intros HS Hl Hi Hr L1 L2. unfold assemble.
  assert (ZS : zlen S = N) by (unfold zlen, N; congruence).
  rewrite !take_rvl by auto. rewrite !take_samples by (rewrite ?ZS; unfold zlen; rewrite ?tz_length; auto).
  assert (ET : map (sample (tz n)) (rvl ind) = trl (map (sample (tz n)) ind)).
  { unfold rvl, trl. rewrite <- map_rev, !map_map. apply map_ext_in. intros i Hx. apply in_rev, Hi in Hx.
    rewrite !sample_tz by (unfold rv, N in *; lia). unfold L, rv. rewrite <- Qc_ofZ_sub. f_equal; lia. }
  rewrite take_samples.
  2:{ intros i Hx. apply In_rvl, Hi in Hx. unfold zlen. rewrite tz_length. unfold rv, N in *. lia. }
  cbn [bind]. rewrite ET. intros E. apply ok_inv in E. subst pts. f_equal.
  rewrite !combine_app by (rewrite ?trl_length, ?rev_length, ?map_length; auto).
  rewrite !turned_combine by (rewrite ?map_length; auto).
  rewrite !turned_app, app_assoc. reflexivity.
Qed.

(** Removing repeated positions from either end. *)
Lemma dedupe_snoc (l : list (Qc * Qc)) q p : (fst q = fst p -> q = p) ->
  dedupe ((l ++ [q]) ++ [p]) = if neqb (fst p) (fst q) then dedupe (l ++ [q]) else dedupe (l ++ [q]) ++ [p].
Proof.
  intros H. induction l as [|x l IH].
  - cbn [app dedupe]. destruct (neqb (fst p) (fst q)) eqn:E; auto. num_qc. apply Qc_eqb_eq in E. rewrite H; auto.
  - destruct l as [|y l].
    + cbn [app dedupe] in *. destruct (neqb (fst q) (fst x)).
      * rewrite IH. destruct (neqb (fst p) (fst q)); reflexivity.
      * rewrite IH. destruct (neqb (fst p) (fst q)); reflexivity.
    + change (((x :: y :: l) ++ [q]) ++ [p]) with (x :: ((y :: l) ++ [q]) ++ [p]).
      change ((x :: y :: l) ++ [q]) with (x :: (y :: l) ++ [q]).
      assert (D : forall t, dedupe (x :: (y :: l) ++ t) =
        if neqb (fst y) (fst x) then dedupe ((y :: l) ++ t) else x :: dedupe ((y :: l) ++ t)) by reflexivity.
      rewrite <- app_assoc in *. rewrite !D, IH. destruct (neqb (fst y) (fst x)), (neqb (fst p) (fst q)); reflexivity.
Qed.
Lemma dedupe_turned l pts : (forall p q, In p pts -> In q pts -> fst p = fst q -> p = q) ->
  dedupe (turned l pts) = turned l (dedupe pts).
Proof.
  induction pts as [|p pts IH]; intros H; [reflexivity|]. destruct pts as [|q pts]; [reflexivity|].
  assert (Hpq : fst p = fst q -> p = q) by (apply H; cbn; auto).
  specialize (IH ltac:(intros; apply H; cbn; auto)).
  change (p :: q :: pts) with (([p] ++ [q]) ++ pts) at 1. rewrite turned_app.
  assert (T2 : turned l ([p] ++ [q]) = [(l - fst q, snd q)%Qc; (l - fst p, snd p)%Qc]) by reflexivity.
  rewrite T2. change (turned l pts ++ [(l - fst q, snd q)%Qc; (l - fst p, snd p)%Qc]) with
    (turned l pts ++ [(l - fst q, snd q)%Qc] ++ [(l - fst p, snd p)%Qc]). rewrite app_assoc.
  assert (TQ : turned l (q :: pts) = turned l pts ++ [(l - fst q, snd q)%Qc]).
  { change (q :: pts) with ([q] ++ pts). rewrite turned_app. reflexivity. }
  rewrite dedupe_snoc.
  2:{ cbn [fst]. intros E. assert (E' : fst p = fst q) by qclra. rewrite (Hpq E'). reflexivity. }
  rewrite <- TQ, IH. cbn [fst].
  change (dedupe (p :: q :: pts)) with (if neqb (fst q) (fst p) then dedupe (q :: pts) else p :: dedupe (q :: pts)).
  assert (EN : neqb (l - fst p)%Qc (l - fst q)%Qc = neqb (fst q) (fst p)).
  { num_qc. apply bool_iff. rewrite !Qc_eqb_eq. split; intros; qclra. }
  rewrite EN. destruct (neqb (fst q) (fst p)); auto.
  change (p :: dedupe (q :: pts)) with ([p] ++ dedupe (q :: pts)). rewrite turned_app. reflexivity.
Qed.

(** ** Extrema *)
Lemma hill_rev S a b : length S = n -> hill (rev S) a b -> hill S (rv b) (rv a).
Proof.
  intros HS (H1 & H2 & H3 & H4 & H5). rewrite rev_length, HS in H2.
  rewrite !sample_rev in H4, H5 by (auto; unfold N; lia).
  unfold hill. rewrite HS. split; [unfold rv; lia|]. split; [unfold rv; lia|]. split; [|split].
  - intros k Hk. specialize (H3 b ltac:(lia)) as Hb. rewrite !sample_rev in Hb by (auto; unfold N; lia). rewrite Hb.
    specialize (H3 (rv k) ltac:(unfold rv in *; lia)). rewrite !sample_rev in H3 by (auto; unfold rv, N in *; lia).
    rewrite rv_rv in H3. exact H3.
  - replace (rv b - 1) with (rv (b + 1)) by (unfold rv; lia). exact H5.
  - replace (rv a + 1) with (rv (a - 1)) by (unfold rv; lia). exact H4.
Qed.
Lemma valley_rev S a b : length S = n -> valley (rev S) a b -> valley S (rv b) (rv a).
Proof.
  intros HS (H1 & H2 & H3 & H4 & H5). rewrite rev_length, HS in H2.
  rewrite !sample_rev in H4, H5 by (auto; unfold N; lia).
  unfold valley. rewrite HS. split; [unfold rv; lia|]. split; [unfold rv; lia|]. split; [|split].
  - intros k Hk. specialize (H3 b ltac:(lia)) as Hb. rewrite !sample_rev in Hb by (auto; unfold N; lia). rewrite Hb.
    specialize (H3 (rv k) ltac:(unfold rv in *; lia)). rewrite !sample_rev in H3 by (auto; unfold rv, N in *; lia).
    rewrite rv_rv in H3. exact H3.
  - replace (rv b - 1) with (rv (b + 1)) by (unfold rv; lia). exact H5.
  - replace (rv a + 1) with (rv (a - 1)) by (unfold rv; lia). exact H4.
Qed.

Lemma pointed_rev S : length S = n -> (2 <= n)%nat -> pointed S -> pointed (rev S).
Proof.
  intros HS Hn (P1 & P2 & P3 & P4). unfold pointed. rewrite rev_length, HS in *. split; [|split; [|split]].
  - intros a b Hh. apply hill_rev in Hh; auto. apply P1 in Hh. unfold rv in Hh. lia.
  - intros a b Hh. apply valley_rev in Hh; auto. apply P2 in Hh. unfold rv in Hh. lia.
  - rewrite !sample_rev by (auto; unfold N; lia). replace (rv 0) with (Z.of_nat n - 1) by (unfold rv; lia).
    replace (rv 1) with (Z.of_nat n - 2) by (unfold rv; lia). auto.
  - rewrite !sample_rev by (auto; unfold N; lia). replace (rv (Z.of_nat n - 2)) with 1 by (unfold rv; lia).
    replace (rv (Z.of_nat n - 1)) with 0 by (unfold rv; lia). auto.
Qed.

Lemma mid_single a i : rounded_mid a a i <-> i = a.
Proof. unfold rounded_mid. split; [intros [H|[_ [H|H]]]; lia|lia]. Qed.

Lemma max_pointed S i : pointed S -> reported_max S i <-> hill S i i.
Proof.
  intros (P1 & _ & P3 & _). unfold reported_max. split.
  - intros [(a & b & Hh & _ & Hm)|(b & Hs & _)].
    + pose proof (P1 _ _ Hh). subst b. apply mid_single in Hm. subst i. auto.
    + destruct Hs as (Hb & Hf & _). exfalso. apply P3. symmetry. apply Hf. lia.
  - intros Hh. left. exists i, i. split; auto. split; auto. apply mid_single. auto.
Qed.
Lemma min_pointed S i : pointed S -> reported_min S i <-> valley S i i.
Proof.
  intros (_ & P1 & P3 & _). unfold reported_min. split.
  - intros [(a & b & Hh & _ & Hm)|(b & Hs & _)].
    + pose proof (P1 _ _ Hh). subst b. apply mid_single in Hm. subst i. auto.
    + destruct Hs as (Hb & Hf & _). exfalso. apply P3. symmetry. apply Hf. lia.
  - intros Hh. left. exists i, i. split; auto. split; auto. apply mid_single. auto.
Qed.

Lemma rep_rev S : length S = n -> (2 <= n)%nat -> pointed S ->
  (forall i, rep (rev S) 1 i <-> rep S 1 (rv i)) /\ (forall i, rep (rev S) (-1) i <-> rep S (-1) (rv i)).
Proof.
  intros HS Hn HP. pose proof (pointed_rev S HS Hn HP) as HP'. assert (HS' : length (rev S) = n) by (rewrite rev_length; auto).
  split; intros i.
  - rewrite !rep_max_iff, !max_pointed by auto. split; intros Hh.
    + apply hill_rev in Hh; auto.
    + rewrite <- (rev_involutive S) in Hh. apply hill_rev in Hh; auto. rewrite rv_rv in Hh. auto.
  - rewrite !rep_min_iff, !min_pointed by auto. split; intros Hh.
    + apply valley_rev in Hh; auto.
    + rewrite <- (rev_involutive S) in Hh. apply valley_rev in Hh; auto. rewrite rv_rv in Hh. auto.
Qed.

Lemma extrema_idx_rev S M m : length S = n -> (2 <= n)%nat -> pointed S ->
  extrema_idx S = Ok (M, m) -> extrema_idx (rev S) = Ok (rvl M, rvl m).
Proof.
  intros HS Hn HP E. destruct (rep_rev S HS Hn HP) as [R1 R2].
  destruct (extrema_idx_spec S) as (M1 & m1 & E1 & I1 & I2 & A1 & A2).
  rewrite E in E1. apply ok_inv in E1. apply pair_inv in E1 as [-> ->].
  destruct (extrema_idx_spec (rev S)) as (M2 & m2 & E2 & J1 & J2 & B1 & B2). rewrite E2. f_equal. f_equal.
  - apply zincreasing_unique; auto using rvl_increasing. intros x. rewrite In_rvl, B1, A1. apply R1.
  - apply zincreasing_unique; auto using rvl_increasing. intros x. rewrite In_rvl, B2, A2. apply R2.
Qed.

(** ** [prepare_points] *)
Lemma lay_consistent cl l M cr r : M <> [] -> left_ok N cl M l -> right_ok N cr M r ->
  forall p q, In p (lay cl l M cr r) -> In q (lay cl l M cr r) -> fst p = fst q -> p = q.
Proof.
  intros HM [_ L1 _] [_ L2 _].
  assert (G : forall p, In p (lay cl l M cr r) ->
    (exists i, In i l /\ p = (2 * cl - i, i)) \/ (exists i, In i M /\ p = (i, i)) \/ (exists i, In i r /\ p = (2 * cr - i, i))).
  { intros p Hp. unfold lay in Hp. apply in_app_or in Hp as [Hp|Hp]; [|apply in_app_or in Hp as [Hp|Hp]];
    apply in_map_iff in Hp as (i & <- & Hi); eauto 6. }
  intros p q Hp Hq. apply G in Hp, Hq. pose proof (hd_In M HM) as H0.
  destruct Hp as [(x & Hx & ->)|[(x & Hx & ->)|(x & Hx & ->)]], Hq as [(y & Hy & ->)|[(y & Hy & ->)|(y & Hy & ->)]];
    cbn [fst]; intros E; f_equal; auto; try lia;
    try pose proof (L1 x _ Hx H0); try pose proof (L1 y _ Hy H0); try pose proof (L2 x _ Hx H0); try pose proof (L2 y _ Hy H0);
    try pose proof (L1 x y Hx Hy); try pose proof (L1 y x Hy Hx); try pose proof (L2 x y Hx Hy); try pose proof (L2 y x Hy Hx); lia.
Qed.

Lemma refl_length c l : length (refl_pos c l) = length l.
Proof. apply map_length. Qed.

Lemma prepare_rv S M m nb e e' P Q : length S = n -> 1 <= nb ->
  M <> [] -> m <> [] -> zincreasing M -> zincreasing m ->
  (forall x, In x M -> 0 < x < N - 1) -> (forall x, In x m -> 0 < x < N - 1) ->
  (forall x, In x M -> In x m -> False) ->
  max_pos e = map Qc_ofZ M -> min_pos e = map Qc_ofZ m ->
  max_pos e' = map Qc_ofZ (rvl M) -> min_pos e' = map Qc_ofZ (rvl m) ->
  prepare_points Simple nb (tz n) S e = Ok (P, Q) ->
  prepare_points Simple nb (tz n) (rev S) e' = Ok (turned L P, turned L Q).
Proof.
  intros HS Hnb HnM Hnm HM Hm HrM Hrm Hd E1 E2 E1' E2'.
  assert (ZM : forall x, In x M -> 0 <= x < N - 1) by (intros x Hx; apply HrM in Hx; lia).
  assert (Zm : forall x, In x m -> 0 <= x < N - 1) by (intros x Hx; apply Hrm in Hx; lia).
  assert (TM : forall x, In x M -> 0 <= x < N) by (intros x Hx; apply HrM in Hx; lia).
  assert (Tm : forall x, In x m -> 0 <= x < N) by (intros x Hx; apply Hrm in Hx; lia).
  assert (ZM' : forall x, In x (rvl M) -> 0 <= x < N - 1) by (intros x Hx; apply In_rvl, HrM in Hx; unfold rv, N in *; lia).
  assert (Zm' : forall x, In x (rvl m) -> 0 <= x < N - 1) by (intros x Hx; apply In_rvl, Hrm in Hx; unfold rv, N in *; lia).
  assert (TM' : forall x, In x (rvl M) -> 0 <= x < N) by (intros x Hx; apply ZM' in Hx; lia).
  assert (Tm' : forall x, In x (rvl m) -> 0 <= x < N) by (intros x Hx; apply Zm' in Hx; lia).
  assert (Hd' : forall x, In x (rvl M) -> In x (rvl m) -> False).
  { intros x. rewrite !In_rvl. apply Hd. }
  assert (HS' : length (rev S) = n) by (rewrite rev_length; auto).
  assert (NM' : rvl M <> []) by (apply dec_rvl; auto). assert (Nm' : rvl m <> []) by (apply dec_rvl; auto).
  destruct (left_bound_ok n S M m nb HS HnM Hnm HM Hm ZM Zm Hd Hnb) as (b1 & b2 & b3 & B1 & B2 & B3 & B4).
  destruct (left_bound_ok n (rev S) (rvl M) (rvl m) nb HS' NM' Nm' (rvl_increasing _ HM) (rvl_increasing _ Hm) ZM' Zm' Hd' Hnb)
    as (d1 & d2 & d3 & D1 & D2 & D3 & D4).
  destruct (left_side n S M m nb HS HnM Hnm HM Hm ZM Zm Hd Hnb) as
    (lmax0 & lmin0 & c0 & cl & lmax & lmin & F1 & F2 & L1 & L2 & Hcl).
  destruct (right_side n S M m nb HS HnM Hnm HM Hm ZM Zm Hd Hnb) as
    (rmax0 & rmin0 & c1 & cr & rmax & rmin & F3 & F4 & R1 & R2 & Hcr).
  destruct (left_side n (rev S) (rvl M) (rvl m) nb HS' NM' Nm' (rvl_increasing _ HM) (rvl_increasing _ Hm) ZM' Zm' Hd' Hnb) as
    (lmax0' & lmin0' & c0' & cl' & lmax' & lmin' & G1 & G2 & L1' & L2' & Hcl').
  rewrite F1 in B1. apply ok_inv in B1. apply pair_inv in B1 as [B1 ->]. apply pair_inv in B1 as [-> ->].
  rewrite G1 in D1. apply ok_inv in D1. apply pair_inv in D1 as [D1 ->]. apply pair_inv in D1 as [-> ->].
  pose proof (right_rv S M m nb HS HnM Hnm TM Tm Hd Hnb _ _ _ F1) as G3.
  pose proof (right_rv (rev S) (rvl M) (rvl m) nb HS' NM' Nm' TM' Tm' Hd' Hnb _ _ _ G1) as F3'.
  rewrite rev_involutive, !rvl_rvl, F3 in F3'. apply ok_inv in F3'.
  apply pair_inv in F3' as [F3' X3]. apply pair_inv in F3' as [X1 X2].
  assert (Hc0 : 0 <= c0 < N).
  { pose proof (hd_In _ HnM) as Q1. apply TM in Q1. pose proof (hd_In _ Hnm) as Q2. apply Tm in Q2.
    destruct B4 as [->|([[-> _]|[-> _]] & _)]; lia. }
  assert (Hc0' : 0 <= c0' < N).
  { pose proof (hd_In _ NM') as Q1. apply TM' in Q1. pose proof (hd_In _ Nm') as Q2. apply Tm' in Q2.
    destruct D4 as [->|([[-> _]|[-> _]] & _)]; lia. }
  pose proof (mirror_right_rv S M m nb HS HnM TM Tm Hd Hnb _ _ _ _ _ _ _ Hc0 (dec_ne _ _ B2) (dec_ne _ _ B3)
    (dec_rng _ _ B2) (dec_rng _ _ B3) F2) as G4.
  pose proof (mirror_right_rv (rev S) (rvl M) (rvl m) nb HS' NM' TM' Tm' Hd' Hnb _ _ _ _ _ _ _ Hc0' (dec_ne _ _ D2) (dec_ne _ _ D3)
    (dec_rng _ _ D2) (dec_rng _ _ D3) G2) as F4'.
  rewrite !rvl_rvl in F4'. rewrite <- !or_default_rvl, !rvl_rvl in F4'. rewrite X1, X2, X3 in F4'.
  assert (ZS : zlen S = N) by (unfold zlen, N; congruence). rewrite ZS in F4. rewrite F4 in F4'. apply ok_inv in F4'.
  apply pair_inv in F4' as [F4' Y4]. apply pair_inv in F4' as [F4' Y3]. apply pair_inv in F4' as [Y1 Y2].
  assert (TT : forall t, trl (trl t) = t).
  { intros t. unfold trl. rewrite <- map_rev, rev_involutive, map_map. rewrite <- map_id. apply map_ext. intros. ring. }
  unfold prepare_points, prepare_points_simple. cbn zeta. rewrite E1, E2, E1', E2', !map_map. cbn [ntrunc QcNum].
  assert (Et : forall l, map (fun x => Qc_trunc (Qc_ofZ x)) l = l).
  { intros l. rewrite <- (map_id l) at 2. apply map_ext. intros. apply Qc_trunc_ofZ. }
  rewrite !Et, F1, F3. cbn [bind]. rewrite F2. cbn [bind].
  assert (ZS' : zlen (rev S) = N) by (rewrite zlen_rev; auto).
  rewrite ZS. rewrite F4. cbn [bind].
  rewrite G1. cbn [bind]. rewrite G3. cbn [bind]. rewrite G2. cbn [bind].
  rewrite ZS', !or_default_rvl, G4. cbn [bind].
  assert (Dn : forall c M l, left_ok N c M l -> forall i, In i l -> 0 <= i < N)
    by (intros c M' l Hl; apply (dec_rng _ _ (left_dec _ _ _ _ Hl))).
  assert (Dr : forall c M l, right_ok N c M l -> forall i, In i l -> 0 <= i < N)
    by (intros c M' l Hl; apply (dec_rng _ _ (right_dec _ _ _ _ Hl))).
  assert (W1 : refl_pos cl' lmax' = trl (refl_pos cr rmax)) by (rewrite <- Y1, TT; reflexivity).
  assert (W2 : lmax' = rvl rmax) by (rewrite <- Y2, rvl_rvl; reflexivity).
  assert (W3 : refl_pos cl' lmin' = trl (refl_pos cr rmin)) by (rewrite <- Y3, TT; reflexivity).
  assert (W4 : lmin' = rvl rmin) by (rewrite <- Y4, rvl_rvl; reflexivity).
  rewrite W1, W3, W2, W4.
  assert (AM := assemble_lay n S cl lmax M cr rmax HS (Dn _ _ _ L1) TM (Dr _ _ _ R1)).
  assert (Am := assemble_lay n S cl lmin m cr rmin HS (Dn _ _ _ L2) Tm (Dr _ _ _ R2)).
  rewrite (assemble_rv _ _ _ _ _ _ _ HS (Dn _ _ _ L1) TM (Dr _ _ _ R1) (refl_length _ _) (refl_length _ _) AM).
  rewrite (assemble_rv _ _ _ _ _ _ _ HS (Dn _ _ _ L2) Tm (Dr _ _ _ R2) (refl_length _ _) (refl_length _ _) Am).
  rewrite AM, Am. cbn [bind]. intros E. apply ok_inv in E. apply pair_inv in E as [-> ->].
  assert (CC : forall l, (forall p q, In p l -> In q l -> fst p = fst q -> p = q) ->
    forall p q, In p (map (point S) l) -> In q (map (point S) l) -> fst p = fst q -> p = q).
  { intros l Hl p q Hp Hq. apply in_map_iff in Hp as (p' & <- & Hp). apply in_map_iff in Hq as (q' & <- & Hq).
    unfold point. cbn [fst]. intros Ef. apply Qc_ofZ_inj in Ef. rewrite (Hl p' q'); auto. }
  rewrite !dedupe_turned; auto; apply CC; apply lay_consistent; auto.
Qed.
End Axis.
