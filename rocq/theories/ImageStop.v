(** * ImageStop: when the sifting of EMD2D and BEMD stops. *)
From Verif Require Import PyFacts QcFacts Spec Image ImageSpec ImageStopSpec EmdExact ImageProofs ImageSift BemdProofs Recon ImageFinal.
From Coq Require Import ZifyBool ZifyNat QArith Qcanon Sorting.Sorted.
Open Scope Z_scope.

(** ** The tests *)
Lemma size_abs x : size x = Qc_abs x.
Proof.
  unfold size, Qc_abs. destruct (Qclt_le_dec x 0) as [L|L].
  - replace (Qc_ltb x 0) with true; auto. symmetry. apply Qc_ltb_lt; auto.
  - replace (Qc_ltb x 0) with false; auto. symmetry. apply Qc_ltb_ge; auto.
Qed.
Lemma nsum_fold (l : list Qc) : nsum l = fold_right Qcplus 0%Qc l.
Proof.
  unfold nsum. change (@n0 Qc QcNum) with 0%Qc. change (@nadd Qc QcNum) with Qcplus.
  assert (G : forall l a, fold_left Qcplus l a = (a + fold_right Qcplus 0 l)%Qc).
  { clear. induction l as [|b l IH]; intros a; cbn [fold_left fold_right]; [ring|]. rewrite IH. ring. }
  rewrite G. ring.
Qed.
Lemma imean_average (x : img) : imean x = average x.
Proof. unfold imean, average. rewrite nsum_fold. reflexivity. Qed.
Lemma imap_size (x : img) : imap nabs x = map (map size) x.
Proof. unfold imap. apply map_ext. intros r. apply map_ext. intros v. symmetry. apply size_abs. Qed.

Lemma concat_all n m (x : img) (P : Qc -> Prop) : rect n m x ->
  (forall v, In v (concat x) -> P v) <-> (forall i j, (i < n)%nat -> (j < m)%nat -> P (pixel x i j)).
Proof.
  intros Hx. split.
  - intros H i j Hi Hj. apply H. apply (concat_In n m); eauto.
  - intros H v Hv. apply (concat_In n m) in Hv; auto. destruct Hv as (i & j & [Hi Hj] & <-). auto.
Qed.
Lemma combine_In (n m : nat) : forall (x y : img) p, rect n m x -> rect n m y ->
  In p (combine (concat x) (concat y)) <->
  exists i j, (i < n /\ j < m)%nat /\ p = (pixel x i j, pixel y i j).
Proof.
  assert (Row : forall (r s : list Qc) p, length r = m -> length s = m ->
    In p (combine r s) <-> exists j, (j < m)%nat /\ p = (nth j r 0%Qc, nth j s 0%Qc)).
  { intros r s p Hr Hs. split.
    - intros I. destruct (In_nth _ _ (0%Qc, 0%Qc) I) as (j & Hj & E). rewrite combine_length, Hr, Hs, Nat.min_id in Hj.
      rewrite combine_nth in E by congruence. exists j. auto.
    - intros (j & Hj & ->). rewrite <- combine_nth by congruence. apply nth_In. rewrite combine_length. lia. }
  induction n as [|n IH]; intros x y p [Lx Fx] [Ly Fy].
  - destruct x; [|discriminate]. cbn. split; [tauto|]. intros (i & j & [Hi _] & _). lia.
  - destruct x as [|r x]; [discriminate|]. destruct y as [|s y]; [discriminate|].
    inversion_clear Fx as [|? ? Hr Fx']. inversion_clear Fy as [|? ? Hs Fy']. cbn [concat].
    assert (C : combine (r ++ concat x) (s ++ concat y) = combine r s ++ combine (concat x) (concat y)).
    { assert (L : length r = length s) by congruence. clear - L. revert s L. induction r as [|a r IH]; intros [|b s] L; try discriminate; auto.
      cbn [app combine]. f_equal. apply IH. injection L; auto. }
    rewrite C, in_app_iff, Row, (IH x y p) by (auto; split; auto). split.
    + intros [(j & Hj & ->)|(i & j & [Hi Hj] & ->)].
      * exists 0%nat, j. split; [lia|reflexivity].
      * exists (Datatypes.S i), j. split; [lia|reflexivity].
    + intros (i & j & [Hi Hj] & ->). destruct i as [|i].
      * left. exists j. auto.
      * right. exists i, j. split; [lia|reflexivity].
Qed.
Lemma iallclose_iff n m (rtol : Qc) x y : rect n m x -> rect n m y ->
  iallclose rtol x y = true <->
  (forall i j, (i < n)%nat -> (j < m)%nat -> (size (pixel x i j - pixel y i j) <= tol + rtol * size (pixel y i j))%Qc).
Proof.
  intros Hx Hy. unfold iallclose. rewrite forallb_forall. split.
  - intros H i j Hi Hj. rewrite !size_abs. apply Qc_leb_le.
    specialize (H (pixel x i j, pixel y i j)). cbn [fst snd] in H. apply H. apply (combine_In n m); eauto.
  - intros H p I. apply (combine_In n m) in I; auto. destruct I as (i & j & [Hi Hj] & ->). cbn [fst snd].
    specialize (H i j Hi Hj). rewrite !size_abs in H. apply Qc_leb_le in H. exact H.
Qed.

Section Tests.
Variable c : cfg2 Qc.
Variables n m : nat.
Definition chk2 (s : sift) : bool := check_proto c (post s) (pre s) (mean s).
Definition chk_b (s : sift) : bool := check_proto_b c (post s) (pre s) (mean s).
Definition shaped (s : sift) : Prop := rect n m (pre s) /\ rect n m (mean s) /\ rect n m (post s).

Lemma flat_iff s : rect n m (mean s) ->
  forallb (fun y => nltb (nabs (nsub y (imean (mean s)))) (mean_thr c)) (concat (mean s)) = true <-> flat_mean n m (mean_thr c) s.
Proof.
  intros He. rewrite forallb_forall. unfold flat_mean. rewrite imean_average.
  rewrite (concat_all n m _ (fun y => nltb (nabs (nsub y (average (mean s)))) (mean_thr c) = true) He).
  split; intros H i j Hi Hj; specialize (H i j Hi Hj); rewrite size_abs in *; apply Qc_ltb_lt; auto.
Qed.
Lemma chk2_iff s : shaped s -> chk2 s = true <-> settled_2d n m (mean_thr c) (mse_thr c) s.
Proof.
  intros (H1 & H2 & H3). unfold chk2, check_proto, settled_2d.
  rewrite <- (flat_iff s H2). unfold little_change. rewrite <- (iallclose_iff n m (Q2Qc (1 # 100000))) by auto.
  unfold nearly_dark, small_square. rewrite <- imap_size, <- !imean_average.
  change (@rtol_default Qc QcNum) with (Q2Qc (1 # 100000)).
  change (map (map (fun v : Qc => (v * v)%Qc)) (post s)) with (imap (fun v : Qc => (v * v)%Qc) (post s)).
  change (@nmul Qc QcNum) with Qcmult. change (@nltb Qc QcNum) with Qc_ltb. rewrite <- !Qc_ltb_lt.
  repeat match goal with |- context [if ?b then _ else _] => destruct b end; intuition congruence.
Qed.
Lemma chk_b_iff s : shaped s -> chk_b s = true <-> settled_bi n m (mean_thr c) s.
Proof.
  intros (H1 & H2 & H3). unfold chk_b, check_proto_b, settled_bi.
  rewrite <- (flat_iff s H2). unfold little_change. rewrite <- (iallclose_iff n m (Q2Qc (1 # 100))) by auto.
  unfold nearly_dark. rewrite <- imap_size, <- !imean_average.
  change (@nlit Qc QcNum 1 100) with (Q2Qc (1 # 100)).
  change (@nltb Qc QcNum) with Qc_ltb. rewrite <- !Qc_ltb_lt.
  repeat match goal with |- context [if ?b then _ else _] => destruct b end; intuition congruence.
Qed.
End Tests.

(** ** The counter of FIXE_H *)
Section Counter.
Variable chk : sift -> bool.
Variable settled : sift -> Prop.
Definition count (q : list sift) : Z := fold_left (fun k s => if chk s then k + 1 else 0) q 0.
Lemma count_snoc q s : count (q ++ [s]) = if chk s then count q + 1 else 0.
Proof. unfold count. rewrite fold_left_app. reflexivity. Qed.
Lemma count_nonneg q : 0 <= count q.
Proof. induction q as [|s q IH] using rev_ind; [cbn; lia|]. rewrite count_snoc. destruct (chk s); lia. Qed.
Lemma count_iff : forall q h, Z.of_nat h <= count q <->
  exists earlier last, q = earlier ++ last /\ length last = h /\ Forall (fun s => chk s = true) last.
Proof.
  induction q as [|s q IH] using rev_ind; intros h.
  - split.
    + intros L. cbn in L. exists [], []. split; auto. split; [cbn; lia|constructor].
    + intros (a & b & E & L & _). destruct a; [|discriminate]. destruct b; [|discriminate]. cbn in *. lia.
  - rewrite count_snoc. destruct h as [|h].
    { split; [|intros _; destruct (chk s); pose proof (count_nonneg q); lia]. intros _. exists (q ++ [s]), []. rewrite app_nil_r. repeat split; constructor. }
    split.
    + destruct (chk s) eqn:E; [|lia]. intros L. destruct (proj1 (IH h) ltac:(lia)) as (a & b & -> & Lb & Fb).
      exists a, (b ++ [s]). rewrite app_assoc. split; auto. split; [rewrite app_length; cbn; lia|]. apply Forall_app. auto.
    + intros (a & b & E & Lb & Fb). destruct b as [|z b _] using rev_ind; [discriminate|].
      rewrite app_assoc in E. apply app_inj_tail in E. destruct E as [-> <-].
      apply Forall_app in Fb. destruct Fb as [Fb Fs]. inversion_clear Fs as [|? ? Es _]. rewrite Es.
      assert (Z.of_nat h <= count (a ++ b)). { apply IH. exists a, b. split; auto. split; auto. rewrite app_length in Lb. cbn in Lb. lia. }
      lia.
Qed.
Definition count' (p : list sift) : Z := count (tl p).
Lemma count'_snoc p s : p <> [] -> count' (p ++ [s]) = if chk s then count' p + 1 else 0.
Proof. destruct p as [|a p]; [congruence|]. intros _. unfold count'. cbn [tl app]. apply count_snoc. Qed.
Lemma count'_iff p h : (0 < h)%nat -> Forall (fun s => chk s = true <-> settled s) p ->
  Z.of_nat h <= count' p <-> settled_for settled h p.
Proof.
  intros Hh F. unfold count', settled_for. rewrite count_iff. destruct p as [|a p]; cbn [tl].
  - split.
    + intros (x & y & E & L & _). destruct x; [|discriminate]. destruct y; [cbn in L; lia|discriminate].
    + intros (x & y & E & NE & _). destruct x; [congruence|discriminate].
  - inversion_clear F as [|? ? _ F']. split.
    + intros (x & y & -> & L & Fy). exists (a :: x), y. split; auto. split; [discriminate|]. split; auto.
      apply Forall_app in F'. destruct F' as [_ F']. rewrite Forall_forall in *. intros s I. apply F'; auto.
    + intros (x & y & E & NE & L & Fy). destruct x as [|a' x]; [congruence|]. injection E as <- ->.
      exists x, y. split; auto. split; auto. apply Forall_app in F'. destruct F' as [_ F']. rewrite Forall_forall in *. intros s I. apply F'; auto.
Qed.
End Counter.

(** Whether the loop stops after the sifts [p]. *)
Definition stop_after (c : cfg2 Qc) (chk : sift -> bool) (p : list sift) : bool :=
  if negb (FIXE2 c =? 0) then FIXE2 c + 1 <=? zlen p
  else if negb (FIXE_H2 c =? 0) then (if zlen p =? 1 then false else FIXE_H2 c <=? count' chk p)
  else match rev p with [] => false | s :: _ => chk s end.

Lemma first_stop_nil (stop : list sift -> bool) (p : list sift) :
  forall e l, @nil sift = e ++ l -> e <> [] -> l <> [] -> stop (p ++ e) = false.
Proof. intros [|a e] l E; [congruence|discriminate E]. Qed.
Lemma first_stop_cons (stop : list sift -> bool) p s q : stop (p ++ [s]) = false ->
  (forall e l, q = e ++ l -> e <> [] -> l <> [] -> stop ((p ++ [s]) ++ e) = false) ->
  forall e l, s :: q = e ++ l -> e <> [] -> l <> [] -> stop (p ++ e) = false.
Proof.
  intros H0 H [|a e] l E NE NL; [congruence|]. injection E as <- E. destruct e as [|b e]; [exact H0|].
  specialize (H (b :: e) l E ltac:(discriminate) NL). rewrite <- app_assoc in H. exact H.
Qed.

(** ** The sifting loop of EMD2D *)
Section Run2.
Variable sbs : surface Qc.
Variable c : cfg2 Qc.
Variables n m : nat.
Hypothesis Hs : surface_ok sbs.
Hypothesis Hn : (0 < n)%nat.
Notation run := (over_sifting n m (five_each n m) (env2 sbs)).
Notation stop := (stop_after c (chk2 c)).

Lemma sift2_run left : forall p n_h x e y b, rect n m x -> rect n m e -> (FIXE2 c = 0 -> FIXE_H2 c <> 0 -> n_h = count' (chk2 c) p) ->
  sift2 sbs c left (zlen p) n_h x e = Ok (y, b) ->
  exists q, run x e q y /\ Forall (shaped n m) q /\ (length q <= left)%nat /\
    (forall e l, q = e ++ l -> e <> [] -> l <> [] -> stop (p ++ e) = false) /\
    (q <> [] /\ stop (p ++ q) = true \/ length q = left \/ ~ five_each n m y).
Proof.
  induction left as [|left IH]; intros p n_h x e y b Hx He Hh; cbn [sift2].
  { intros [= <- <-]. exists []. split; [constructor|]. split; [constructor|]. split; [cbn; lia|]. split; [apply first_stop_nil|cbn; auto]. }
  assert (G := enough2 n m x Hx Hn). destruct (find_extrema2 x) as [mins maxs].
  destruct ((4 <? zlen mins) && (4 <? zlen maxs)) eqn:E4.
  2:{ intros [= <- <-]. exists []. split; [constructor|]. split; [constructor|]. split; [cbn; lia|]. split; [apply first_stop_nil|].
      right. right. intros F. apply G in F. congruence. }
  apply proj1 in G. specialize (G eq_refl).
  assert (Hx' : rect n m (isub x e)) by (apply rect_imap2; auto).
  destruct (envelopes2 sbs (isub x e)) as [[lo up]|] eqn:EV; cbn [bind]; [|discriminate].
  destruct (envelopes2_rect sbs n m _ _ _ Hs Hx' Hn EV) as [Rl Ru].
  fold (half_of lo up). set (e' := half_of lo up).
  assert (He' : rect n m e') by (apply rect_imap, rect_imap2; auto).
  set (y0 := isub (isub x e) e'). assert (Hy0 : rect n m y0) by (apply rect_imap2; auto).
  set (s := MkSift (isub x e) e' y0).
  assert (Hshape : shaped n m s) by (unfold shaped; auto).
  assert (Step : forall q z, run y0 e' q z -> run x e (s :: q) z).
  { intros q z Hz. eapply os_more; eauto using minus_isub, midway_half. }
  assert (Stop : stop (p ++ [s]) = true -> Ok (y0, true) = Ok (y, b) ->
    exists q, run x e q y /\ Forall (shaped n m) q /\ (length q <= Datatypes.S left)%nat /\
    (forall e l, q = e ++ l -> e <> [] -> l <> [] -> stop (p ++ e) = false) /\
    (q <> [] /\ stop (p ++ q) = true \/ length q = Datatypes.S left \/ ~ five_each n m y)).
  { intros St [= <- <-]. exists [s]. split; [apply Step; constructor|]. split; [auto|]. split; [cbn; lia|]. split.
    - intros [|a [|a' e1]] l E NE NL; try congruence; try discriminate. injection E as _ <-. congruence.
    - left. split; [discriminate|auto]. }
  assert (L : zlen (p ++ [s]) = zlen p + 1) by (unfold zlen; rewrite app_length; cbn; lia).
  assert (More : forall n_h', stop (p ++ [s]) = false -> (FIXE2 c = 0 -> FIXE_H2 c <> 0 -> n_h' = count' (chk2 c) (p ++ [s])) ->
    sift2 sbs c left (zlen p + 1) n_h' y0 e' = Ok (y, b) ->
    exists q, run x e q y /\ Forall (shaped n m) q /\ (length q <= Datatypes.S left)%nat /\
    (forall e l, q = e ++ l -> e <> [] -> l <> [] -> stop (p ++ e) = false) /\
    (q <> [] /\ stop (p ++ q) = true \/ length q = Datatypes.S left \/ ~ five_each n m y)).
  { intros nh' St Hh' R. rewrite <- L in R. destruct (IH _ _ _ _ _ _ Hy0 He' Hh' R) as (q & Rq & Sq & Lq & Fq & Eq).
    exists (s :: q). split; [auto|]. split; [auto|]. split; [cbn; lia|]. split; [apply first_stop_cons; auto|].
    rewrite <- app_assoc in Eq. cbn [app] in Eq. cbn [length].
    destruct Eq as [[_ Eq]|[Eq|Eq]]; [left; split; [discriminate|auto]|right; left; lia|auto]. }
  destruct (negb (FIXE2 c =? 0)) eqn:EF.
  { unfold stop_after at 1 in Stop. unfold stop_after at 1 in More. rewrite EF, L in Stop, More.
    destruct (FIXE2 c + 1 <=? zlen p + 1) eqn:EL; [apply Stop; auto|apply More; [auto|intros E0; exfalso; clear -E0 EF; lia]]. }
  destruct (negb (FIXE_H2 c =? 0)) eqn:EH.
  { unfold stop_after at 1 in Stop. unfold stop_after at 1 in More. rewrite EF, EH, L in Stop, More.
    destruct (zlen p + 1 =? 1) eqn:E1.
    { assert (p = []) by (destruct p; auto; unfold zlen in E1; cbn [length] in E1; lia). subst p. apply More; [auto|exact Hh]. }
    assert (NP : p <> []) by (intros ->; discriminate).
    assert (C : (if check_proto c y0 (isub x e) e' then n_h + 1 else 0) = count' (chk2 c) (p ++ [s])).
    { rewrite count'_snoc by auto. rewrite Hh by lia. reflexivity. }
    rewrite C. destruct (FIXE_H2 c <=? count' (chk2 c) (p ++ [s])) eqn:EL; [apply Stop; auto|apply More; auto]. }
  unfold stop_after at 1 in Stop. unfold stop_after at 1 in More. rewrite EF, EH, rev_app_distr in Stop, More. cbn [rev app] in Stop, More.
  change (check_proto c y0 (isub x e) e') with (chk2 c s).
  destruct (chk2 c s) eqn:EC; [apply Stop; auto|apply More; auto]. lia.
Qed.
End Run2.

(** ** The sifting loop of BEMD *)
Section RunB.
Variable rec : reconstruction Qc.
Variable f : rbf Qc.
Variable c : cfg2 Qc.
Variable n : nat.
Hypothesis Hf : rbf_ok f.
Hypothesis Hn : (0 < n)%nat.
Notation run := (sifting n n (two_each rec) (env_b rec f)).
Notation stop := (stop_after c (chk_b c)).

Lemma sift_b_run left : forall p n_h x y b, rect n n x -> (FIXE2 c = 0 -> FIXE_H2 c <> 0 -> n_h = count' (chk_b c) p) ->
  sift_b rec f c left (zlen p) n_h x = Ok (y, b) ->
  exists q, run x q y /\ Forall (shaped n n) q /\ (length q <= left)%nat /\
    (forall e l, q = e ++ l -> e <> [] -> l <> [] -> stop (p ++ e) = false) /\
    (q <> [] /\ stop (p ++ q) = true \/ length q = left \/ ~ two_each rec y).
Proof.
  induction left as [|left IH]; intros p n_h x y b Hx Hh; cbn [sift_b].
  { intros [= <- <-]. exists []. split; [constructor|]. split; [constructor|]. split; [cbn; lia|]. split; [apply first_stop_nil|cbn; auto]. }
  destruct ((1 <? zlen (minima_positions rec x)) && (1 <? zlen (maxima_positions rec x))) eqn:E4.
  2:{ intros [= <- <-]. exists []. split; [constructor|]. split; [constructor|]. split; [cbn; lia|]. split; [apply first_stop_nil|].
      right. right. intros F. unfold two_each, zlen in *. lia. }
  assert (G : two_each rec x) by (unfold two_each, zlen in *; lia).
  destruct (envelopes_b f x _ _) as [[lo up]|] eqn:EV; cbn [bind]; [|discriminate].
  destruct (envelopes_b_rect f n n x _ _ _ _ Hf Hx Hn EV) as [Rl Ru].
  fold (half_of lo up). set (e' := half_of lo up).
  assert (He' : rect n n e') by (apply rect_imap, rect_imap2; auto).
  assert (SS : same_shape x e' = true) by (apply (same_shape_iff n n n n); auto). rewrite SS. cbn [negb].
  set (y0 := isub x e'). assert (Hy0 : rect n n y0) by (apply rect_imap2; auto).
  set (s := MkSift x e' y0).
  assert (Hshape : shaped n n s) by (unfold shaped; auto).
  assert (Step : forall q z, run y0 q z -> run x (s :: q) z).
  { intros q z Hz. eapply sifting_more; eauto using minus_isub, midway_half. }
  assert (Stop : stop (p ++ [s]) = true -> Ok (y0, true) = Ok (y, b) ->
    exists q, run x q y /\ Forall (shaped n n) q /\ (length q <= Datatypes.S left)%nat /\
    (forall e l, q = e ++ l -> e <> [] -> l <> [] -> stop (p ++ e) = false) /\
    (q <> [] /\ stop (p ++ q) = true \/ length q = Datatypes.S left \/ ~ two_each rec y)).
  { intros St [= <- <-]. exists [s]. split; [apply Step; constructor|]. split; [auto|]. split; [cbn; lia|]. split.
    - intros [|a [|a' e1]] l E NE NL; try congruence; try discriminate. injection E as _ <-. congruence.
    - left. split; [discriminate|auto]. }
  assert (L : zlen (p ++ [s]) = zlen p + 1) by (unfold zlen; rewrite app_length; cbn; lia).
  assert (More : forall n_h', stop (p ++ [s]) = false -> (FIXE2 c = 0 -> FIXE_H2 c <> 0 -> n_h' = count' (chk_b c) (p ++ [s])) ->
    sift_b rec f c left (zlen p + 1) n_h' y0 = Ok (y, b) ->
    exists q, run x q y /\ Forall (shaped n n) q /\ (length q <= Datatypes.S left)%nat /\
    (forall e l, q = e ++ l -> e <> [] -> l <> [] -> stop (p ++ e) = false) /\
    (q <> [] /\ stop (p ++ q) = true \/ length q = Datatypes.S left \/ ~ two_each rec y)).
  { intros nh' St Hh' R. rewrite <- L in R. destruct (IH _ _ _ _ _ Hy0 Hh' R) as (q & Rq & Sq & Lq & Fq & Eq).
    exists (s :: q). split; [auto|]. split; [auto|]. split; [cbn; lia|]. split; [apply first_stop_cons; auto|].
    rewrite <- app_assoc in Eq. cbn [app] in Eq. cbn [length].
    destruct Eq as [[_ Eq]|[Eq|Eq]]; [left; split; [discriminate|auto]|right; left; lia|auto]. }
  destruct (negb (FIXE2 c =? 0)) eqn:EF.
  { unfold stop_after at 1 in Stop. unfold stop_after at 1 in More. rewrite EF, L in Stop, More.
    destruct (FIXE2 c + 1 <=? zlen p + 1) eqn:EL; [apply Stop; auto|apply More; [auto|intros E0; exfalso; clear -E0 EF; lia]]. }
  destruct (negb (FIXE_H2 c =? 0)) eqn:EH.
  { unfold stop_after at 1 in Stop. unfold stop_after at 1 in More. rewrite EF, EH, L in Stop, More.
    destruct (zlen p + 1 =? 1) eqn:E1.
    { assert (p = []) by (destruct p; auto; unfold zlen in E1; cbn [length] in E1; lia). subst p. apply More; [auto|exact Hh]. }
    assert (NP : p <> []) by (intros ->; discriminate).
    assert (C : (if check_proto_b c y0 x e' then n_h + 1 else 0) = count' (chk_b c) (p ++ [s])).
    { rewrite count'_snoc by auto. rewrite Hh by lia. reflexivity. }
    rewrite C. destruct (FIXE_H2 c <=? count' (chk_b c) (p ++ [s])) eqn:EL; [apply Stop; auto|apply More; auto]. }
  unfold stop_after at 1 in Stop. unfold stop_after at 1 in More. rewrite EF, EH, rev_app_distr in Stop, More. cbn [rev app] in Stop, More.
  change (check_proto_b c y0 x e') with (chk_b c s).
  destruct (chk_b c s) eqn:EC; [apply Stop; auto|apply More; auto]. lia.
Qed.
End RunB.

(** ** The rules *)
Section Rules.
Variable c : cfg2 Qc.
Variable chk : sift -> bool.
Variable settled : sift -> Prop.
Definition rule (p : list sift) : Prop :=
  if negb (FIXE_H2 c =? 0) then settled_for settled (Z.to_nat (FIXE_H2 c)) p else settled_now settled p.
Lemma stop_rule p : FIXE2 c = 0 -> 0 <= FIXE_H2 c -> Forall (fun s => chk s = true <-> settled s) p ->
  stop_after c chk p = true <-> rule p.
Proof.
  intros E0 Eh F. unfold stop_after, rule. replace (negb (FIXE2 c =? 0)) with false by lia.
  destruct (negb (FIXE_H2 c =? 0)) eqn:EH.
  - rewrite <- (count'_iff chk settled) by (auto; lia). rewrite Z2Nat.id by auto.
    destruct (Z.eqb_spec (zlen p) 1) as [L|L]; [|lia]. destruct p as [|a [|b p]]; unfold zlen in L; cbn [length] in L; try lia.
    unfold count'. cbn. lia.
  - destruct p as [|s p _] using rev_ind.
    + cbn. split; [discriminate|]. intros (e & s & E & _). destruct e; discriminate.
    + rewrite rev_app_distr. cbn [rev app]. apply Forall_app in F. destruct F as [_ F]. inversion_clear F as [|? ? H _].
      rewrite H. split.
      * intros Q. exists p, s. auto.
      * intros (e & s' & E & Q). apply app_inj_tail in E. destruct E as [_ ->]. auto.
Qed.
Lemma stops q left (ex : Prop) : FIXE2 c = 0 -> 0 <= FIXE_H2 c -> Forall (fun s => chk s = true <-> settled s) q ->
  (forall e l, q = e ++ l -> e <> [] -> l <> [] -> stop_after c chk ([] ++ e) = false) ->
  (q <> [] /\ stop_after c chk ([] ++ q) = true \/ length q = left \/ ex) ->
  stops_by rule (length q = left \/ ex) q.
Proof.
  intros E0 Eh F H0 H1. cbn [app] in *. split.
  - intros e l -> NL R. apply Forall_app in F. destruct F as [F _]. apply (stop_rule e E0 Eh F) in R.
    destruct e as [|a e].
    + unfold stop_after, count' in R. cbn in R. replace (negb (FIXE2 c =? 0)) with false in R by lia.
      destruct (negb (FIXE_H2 c =? 0)) eqn:EH; [|discriminate]. lia.
    + rewrite (H0 _ l) in R; [discriminate|auto|discriminate|auto].
  - destruct H1 as [[_ H1]|H1]; auto. left. apply (stop_rule q E0 Eh F); auto.
Qed.
End Rules.

Lemma over_sifting_impl n m (en en' : img -> Prop) (env env' : img -> img -> img -> Prop) : forall x e q y,
  rect n m x -> (forall x, rect n m x -> en x -> en' x) -> (forall x l u, rect n m x -> env x l u -> env' x l u) ->
  over_sifting n m en env x e q y -> over_sifting n m en' env' x e q y.
Proof.
  intros x e q y Hx He Hv O. revert Hx. induction O as [|x e0 x' lo up e y l z G M1 V Md M2 O IH]; intros Hx; [constructor|].
  eapply os_more; eauto; [apply Hv; auto; apply M1|]. apply IH. apply M2.
Qed.
Lemma sifting_impl n m (en en' : img -> Prop) (env env' : img -> img -> img -> Prop) : forall x q y,
  rect n m x -> (forall x, rect n m x -> en x -> en' x) -> (forall x l u, rect n m x -> env x l u -> env' x l u) ->
  sifting n m en env x q y -> sifting n m en' env' x q y.
Proof.
  intros x q y Hx He Hv O. revert Hx. induction O as [|x lo up e y l z G V Md M2 O IH]; intros Hx; [constructor|].
  eapply sifting_more; eauto. apply IH. apply M2.
Qed.
Lemma sifting_rect n m en env : forall x q y, rect n m x -> sifting n m en env x q y -> rect n m y.
Proof. intros x q y Hx O. revert Hx. induction O as [|x lo up e y l z G V Md M2 O IH]; intros Hx; auto. apply IH. apply M2. Qed.

Lemma emd2d_stops sbs c fuel image max_imf n m rows : surface_ok sbs -> (0 < n)%nat -> rect n m image ->
  FIXE2 c = 0 -> 0 <= FIXE_H2 c ->
  emd2d sbs c fuel image max_imf = Ok rows ->
  exists lo hi xs comps tail zero, darkest n m image lo /\ brightest n m image hi /\ (lo < hi)%Qc /\
    normalised n m lo hi image xs /\ in_units n m lo hi (comps ++ tail) rows /\ (length tail <= 1)%nat /\ blank n m zero /\
    peeled n m (fun r y => exists sifts, over_sifting n m (five_each n m) (spec2 sbs n m) r zero sifts y /\
      stops_by (rule c (settled_2d n m (mean_thr c) (mse_thr c)))
        (length sifts = Z.to_nat (MAX_ITERATION2 c) \/ ~ five_each n m y) sifts) xs comps.
Proof.
  intros Hs Hn Hx H0 Hh E. destruct (emd2d_spec _ _ _ _ _ n m _ Hs Hn Hx E)
    as (lo & hi & xs & comps & tail & Dk & Br & LH & Nx & NE & Pl & LM & Lt & Fr & Lr & Rw & Q).
  exists lo, hi, xs, comps, tail, (izeros image). split; [auto|]. split; [auto|]. split; [auto|]. split; [auto|].
  split. { split; [auto|]. intros k i j Hk Hi Hj.
    destruct (nth_split (comps ++ tail) [] Hk) as (l & z & E1 & Ll).
    rewrite (Rw l (nth k (comps ++ tail) []) z k E1 Ll i j Hi Hj).
    replace (match z with [] => lo | _ => 0%Qc end) with (if (k + 1 =? length (comps ++ tail))%nat then lo else 0%Qc); auto.
    rewrite E1 at 1. rewrite app_length. cbn [length]. destruct z; cbn [length].
    - replace (k + 1 =? length l + 1)%nat with true by lia. auto.
    - replace (k + 1 =? length l + Datatypes.S (Datatypes.S (length z)))%nat with false by lia. auto. }
  split; [auto|]. split; [apply izeros_blank; auto|]. eapply peeled_impl; [|exact Pl].
  intros r y Hr [b S]. cbv beta in *.
  assert (Hz : rect n m (izeros image)) by (apply rect_zeros; auto).
  assert (V : forall x l u, rect n m x -> env2 sbs x l u -> spec2 sbs n m x l u) by (intros; apply env2_doc; auto).
  destruct (sift2_run sbs c n m Hs Hn (Z.to_nat (MAX_ITERATION2 c)) [] 0 r (izeros image) y b Hr Hz ltac:(reflexivity) S)
    as (q & Rq & Sq & Lq & Fq & Eq).
  exists q. split; [eapply over_sifting_impl; [exact Hr| |exact V|exact Rq]; auto|].
  apply (stops c (chk2 c)); auto. eapply Forall_impl; [|exact Sq]. intros s. apply chk2_iff.
Qed.

Lemma bemd_stops rec f c fuel image max_imf n rows : rec_ok n n rec -> rbf_ok f -> (0 < n)%nat -> rect n n image ->
  FIXE2 c = 0 -> 0 <= FIXE_H2 c ->
  bemd rec f c fuel image max_imf = Ok rows ->
  exists comps tail, rows = comps ++ tail /\ (length tail <= 1)%nat /\
    peeled n n (fun r y => exists sifts, sifting n n (two_prominent n n) (spec_b f n) r sifts y /\
      stops_by (rule c (settled_bi n n (mean_thr c)))
        (length sifts = Z.to_nat (MAX_ITERATION2 c) \/ ~ two_prominent n n y) sifts) image comps.
Proof.
  intros Hr Hf Hn Hx H0 Hh E. destruct (bemd_spec _ _ _ _ _ _ n _ Hf Hn Hx E) as (comps & tail & -> & NE & Fr & Pl & LM & Lt & Q).
  exists comps, tail. split; [auto|]. split; [auto|]. eapply peeled_impl; [|exact Pl]. intros r y Hrr S. cbv beta in *.
  assert (V : forall x l u, rect n n x -> env_b rec f x l u -> spec_b f n x l u) by (intros x l u Hxx W; exact (proj1 (env_b_doc rec f n x l u Hr Hn Hxx) W)).
  assert (G : forall x, rect n n x -> two_each rec x -> two_prominent n n x) by (intros x Hxx W; exact (proj1 (two_each_doc rec n n Hr Hn x Hxx) W)).
  destruct (sift_b_run rec f c n Hf Hn (Z.to_nat (MAX_ITERATION2 c)) [] 0 r y true Hrr ltac:(reflexivity) S) as (q & Rq & Sq & Lq & Fq & Eq).
  assert (Ry := sifting_rect n n _ _ r q y Hrr Rq).
  exists q. split; [eapply sifting_impl; [exact Hrr|exact G|exact V|exact Rq]|].
  apply (stops c (chk_b c)); auto; [eapply Forall_impl; [|exact Sq]; intros s; apply chk_b_iff|].
  destruct Eq as [Eq|[Eq|Eq]]; auto. right. right. intros T. apply Eq. exact (proj2 (two_each_doc rec n n Hr Hn y Ry) T).
Qed.

Lemma rule_default c settled : FIXE_H2 c = 0 -> rule c settled = settled_now settled.
Proof. intros E. unfold rule. rewrite E. reflexivity. Qed.
Lemma rule_h c settled : 0 < FIXE_H2 c -> rule c settled = settled_for settled (Z.to_nat (FIXE_H2 c)).
Proof. intros E. unfold rule. destruct (Z.eqb_spec (FIXE_H2 c) 0) as [Z|Z]; [lia|reflexivity]. Qed.
Lemma emd2d_stops_default sbs c fuel image max_imf n m rows : surface_ok sbs -> (0 < n)%nat -> rect n m image ->
  FIXE2 c = 0 -> FIXE_H2 c = 0 ->
  emd2d sbs c fuel image max_imf = Ok rows ->
  exists lo hi xs comps tail zero, darkest n m image lo /\ brightest n m image hi /\ (lo < hi)%Qc /\
    normalised n m lo hi image xs /\ in_units n m lo hi (comps ++ tail) rows /\ (length tail <= 1)%nat /\ blank n m zero /\
    peeled n m (fun r y => exists sifts, over_sifting n m (five_each n m) (spec2 sbs n m) r zero sifts y /\
      stops_by (settled_now (settled_2d n m (mean_thr c) (mse_thr c)))
        (length sifts = Z.to_nat (MAX_ITERATION2 c) \/ ~ five_each n m y) sifts) xs comps.
Proof. intros Hs Hn Hx H0 Hh. rewrite <- (rule_default c) by auto. apply emd2d_stops; auto. lia. Qed.
Lemma emd2d_stops_h sbs c fuel image max_imf n m rows : surface_ok sbs -> (0 < n)%nat -> rect n m image ->
  FIXE2 c = 0 -> 0 < FIXE_H2 c ->
  emd2d sbs c fuel image max_imf = Ok rows ->
  exists lo hi xs comps tail zero, darkest n m image lo /\ brightest n m image hi /\ (lo < hi)%Qc /\
    normalised n m lo hi image xs /\ in_units n m lo hi (comps ++ tail) rows /\ (length tail <= 1)%nat /\ blank n m zero /\
    peeled n m (fun r y => exists sifts, over_sifting n m (five_each n m) (spec2 sbs n m) r zero sifts y /\
      stops_by (settled_for (settled_2d n m (mean_thr c) (mse_thr c)) (Z.to_nat (FIXE_H2 c)))
        (length sifts = Z.to_nat (MAX_ITERATION2 c) \/ ~ five_each n m y) sifts) xs comps.
Proof. intros Hs Hn Hx H0 Hh. rewrite <- (rule_h c) by auto. apply emd2d_stops; auto. lia. Qed.
Lemma bemd_stops_default rec f c fuel image max_imf n rows : rec_ok n n rec -> rbf_ok f -> (0 < n)%nat -> rect n n image ->
  FIXE2 c = 0 -> FIXE_H2 c = 0 ->
  bemd rec f c fuel image max_imf = Ok rows ->
  exists comps tail, rows = comps ++ tail /\ (length tail <= 1)%nat /\
    peeled n n (fun r y => exists sifts, sifting n n (two_prominent n n) (spec_b f n) r sifts y /\
      stops_by (settled_now (settled_bi n n (mean_thr c)))
        (length sifts = Z.to_nat (MAX_ITERATION2 c) \/ ~ two_prominent n n y) sifts) image comps.
Proof. intros Hr Hf Hn Hx H0 Hh. rewrite <- (rule_default c) by auto. apply bemd_stops; auto. lia. Qed.
Lemma bemd_stops_h rec f c fuel image max_imf n rows : rec_ok n n rec -> rbf_ok f -> (0 < n)%nat -> rect n n image ->
  FIXE2 c = 0 -> 0 < FIXE_H2 c ->
  bemd rec f c fuel image max_imf = Ok rows ->
  exists comps tail, rows = comps ++ tail /\ (length tail <= 1)%nat /\
    peeled n n (fun r y => exists sifts, sifting n n (two_prominent n n) (spec_b f n) r sifts y /\
      stops_by (settled_for (settled_bi n n (mean_thr c)) (Z.to_nat (FIXE_H2 c)))
        (length sifts = Z.to_nat (MAX_ITERATION2 c) \/ ~ two_prominent n n y) sifts) image comps.
Proof. intros Hr Hf Hn Hx H0 Hh. rewrite <- (rule_h c) by auto. apply bemd_stops; auto. lia. Qed.

(** BEMD's mse_thr decides nothing. *)
Lemma bemd_mse rec f fuel image max_imf mt t1 t2 fx fh mx :
  bemd rec f (MkCfg2 t1 mt fx fh mx) fuel image max_imf = bemd rec f (MkCfg2 t2 mt fx fh mx) fuel image max_imf.
Proof.
  assert (G : forall left n n_h x, sift_b rec f (MkCfg2 t1 mt fx fh mx) left n n_h x = sift_b rec f (MkCfg2 t2 mt fx fh mx) left n n_h x).
  { induction left as [|left IH]; intros n n_h x; cbn [sift_b]; auto.
    change (check_proto_b (MkCfg2 t1 mt fx fh mx)) with (check_proto_b (MkCfg2 t2 mt fx fh mx)).
    cbn [FIXE2 FIXE_H2]. destruct (_ && _); auto. destruct (envelopes_b f x _ _) as [[lo up]|]; cbn [bind]; auto.
    destruct (negb (same_shape x _)); auto. rewrite !IH. reflexivity. }
  assert (M : forall fuel IMF, modes2 (fun r => sift_b rec f (MkCfg2 t1 mt fx fh mx) (Z.to_nat mx) 0 0 r) fuel image image max_imf IMF =
    modes2 (fun r => sift_b rec f (MkCfg2 t2 mt fx fh mx) (Z.to_nat mx) 0 0 r) fuel image image max_imf IMF).
  { clear fuel. induction fuel as [|fuel IH]; intros IMF; cbn [modes2]; auto. rewrite G.
    destruct (sift_b _ _ _ _ _ _ _) as [[y b]|]; cbn [bind]; auto. destruct (_ || _); auto. destruct b; auto. }
  unfold bemd. cbn [MAX_ITERATION2]. rewrite M. reflexivity.
Qed.
