(** * ImageSift: the sifting and decomposition loops of EMD2D and BEMD. *)
From Verif Require Import PyFacts QcFacts Spec Image ImageSpec EmdExact ImageProofs.
From Coq Require Import ZifyBool ZifyNat QArith Qcanon Sorting.Sorted.
Open Scope Z_scope.

(** SciPy's fits return arrays of the shape asked for. *)
Definition surface_ok (sbs : surface Qc) : Prop :=
  forall ps vs xi yi e, sbs ps vs xi yi = Ok e -> rect (length xi) (length yi) e.
Definition rbf_ok (f : rbf Qc) : Prop := forall ps vs n m e, f ps vs n m = Ok e -> rect m n e.

Definition half_of (a b : img) : img := imap (nmul nhalf) (iadd a b).
Lemma midway_half n m a b : rect n m a -> rect n m b -> midway n m a b (half_of a b).
Proof.
  intros Ha Hb. split; [apply rect_imap, rect_imap2; auto|]. intros i j Hi Hj. unfold half_of, iadd.
  rewrite (pixel_imap n m), (pixel_imap2 n m) by (auto; apply rect_imap2; auto).
  change nhalf with (Q2Qc (1 # 2)). change nmul with Qcmult. change nadd with Qcplus. ring.
Qed.
Lemma minus_isub n m x e : rect n m x -> rect n m e -> minus n m x e (isub x e).
Proof.
  intros Hx He. split; [apply rect_imap2; auto|]. intros i j Hi Hj. unfold isub. rewrite (pixel_imap2 n m); auto.
Qed.

(** ** Enough extrema *)
Lemma before_irrefl p : ~ before p p.
Proof. unfold before. lia. Qed.
Lemma sorted_nodup l : StronglySorted before l -> NoDup l.
Proof.
  induction 1 as [|a l Hs IH Ha]; constructor; auto. intros I. rewrite Forall_forall in Ha. exact (before_irrefl _ (Ha _ I)).
Qed.
Lemma at_least_iff k (P : nat -> nat -> Prop) l : NoDup l -> (forall i j, In (i, j) l <-> P i j) ->
  (k <= length l)%nat <-> at_least k P.
Proof.
  intros N E. split.
  - intros H. exists l. repeat split; auto. intros i j. apply E.
  - intros (ps & Np & Lp & Hp). apply Nat.le_trans with (length ps); auto. apply NoDup_incl_length; auto.
    intros [i j] H. apply E. apply Hp. auto.
Qed.

Lemma enough2 n m x : rect n m x -> (0 < n)%nat ->
  (let (mins, maxs) := find_extrema2 x in (4 <? zlen mins) && (4 <? zlen maxs)) = true <-> five_each n m x.
Proof.
  intros Hx Hn. destruct (find_extrema2_spec n m x Hx Hn) as (mins & maxs & -> & S1 & S2 & E1 & E2).
  unfold five_each. rewrite <- (at_least_iff 5 _ mins (sorted_nodup _ S1) E1), <- (at_least_iff 5 _ maxs (sorted_nodup _ S2) E2).
  unfold zlen. lia.
Qed.

Definition env2 (sbs : surface Qc) (x lower upper : img) : Prop := envelopes2 sbs x = Ok (lower, upper).
Lemma envelopes2_rect sbs n m x a b : surface_ok sbs -> rect n m x -> (0 < n)%nat ->
  envelopes2 sbs x = Ok (a, b) -> rect n m a /\ rect n m b.
Proof.
  intros Hs Hx Hn. unfold envelopes2. destruct (find_extrema2 (prepare_image x)) as [mins maxs].
  rewrite (nrows_rect n m), (ncols_rect n m) by auto.
  destruct (sbs mins _ _ _) as [e1|] eqn:E1; cbn [bind]; [|discriminate].
  destruct (sbs maxs _ _ _) as [e2|] eqn:E2; cbn [bind]; [|discriminate].
  intros [= <- <-]. apply Hs in E1, E2. rewrite !seq_length in *. auto.
Qed.

(** ** The sifting loop of EMD2D *)
Section Sift2.
Variable sbs : surface Qc.
Variable c : cfg2 Qc.
Variables n m : nat.
Hypothesis Hs : surface_ok sbs.
Hypothesis Hn : (0 < n)%nat.
Notation over := (over_sifted n m (five_each n m) (env2 sbs)).

(** Every result is the outcome of some number of sifts. *)
Lemma sift2_any left : forall k n_h x e y b, rect n m x -> rect n m e ->
  sift2 sbs c left k n_h x e = Ok (y, b) ->
  rect n m y /\ exists j, (j <= left)%nat /\ over j x e y /\
    (b = false -> ~ five_each n m y).
Proof.
  induction left as [|left IH]; intros k n_h x e y b Hx He; cbn [sift2].
  { intros [= <- <-]. split; auto. exists 0%nat. split; [lia|]. split; [constructor|discriminate]. }
  assert (G := enough2 n m x Hx Hn). destruct (find_extrema2 x) as [mins maxs].
  destruct ((4 <? zlen mins) && (4 <? zlen maxs)) eqn:E4.
  2:{ intros [= <- <-]. split; auto. exists 0%nat. split; [lia|]. split; [constructor|]. intros _ F. apply G in F. congruence. }
  apply proj1 in G. specialize (G eq_refl).
  assert (Hx' : rect n m (isub x e)) by (apply rect_imap2; auto).
  destruct (envelopes2 sbs (isub x e)) as [[lo up]|] eqn:EV; cbn [bind]; [|discriminate].
  destruct (envelopes2_rect sbs n m _ _ _ Hs Hx' Hn EV) as [Rl Ru].
  fold (half_of lo up). set (e' := half_of lo up).
  assert (He' : rect n m e') by (apply rect_imap, rect_imap2; auto).
  set (y0 := isub (isub x e) e'). assert (Hy0 : rect n m y0) by (apply rect_imap2; auto).
  assert (Step : forall j z, over j y0 e' z -> over (Datatypes.S j) x e z).
  { intros j z Hz. eapply over_more; eauto using minus_isub, midway_half. }
  assert (Stop : Ok (y0, true) = Ok (y, b) -> rect n m y /\ exists j, (j <= Datatypes.S left)%nat /\ over j x e y /\
    (b = false -> ~ five_each n m y)).
  { intros [= <- <-]. split; auto. exists 1%nat. split; [lia|]. split; [apply Step; constructor|discriminate]. }
  assert (More : forall k n_h, sift2 sbs c left k n_h y0 e' = Ok (y, b) ->
    rect n m y /\ exists j, (j <= Datatypes.S left)%nat /\ over j x e y /\ (b = false -> ~ five_each n m y)).
  { intros k' nh' R. destruct (IH _ _ _ _ _ _ Hy0 He' R) as (Ry & j & Lj & Oj & Bj). split; auto.
    exists (Datatypes.S j). split; [lia|]. split; auto. }
  destruct (negb (FIXE2 c =? 0)).
  { destruct (FIXE2 c + 1 <=? k + 1); auto. apply More. }
  destruct (negb (FIXE_H2 c =? 0)).
  { destruct (k + 1 =? 1); [apply More|]. destruct (FIXE_H2 c <=? _); auto. apply More. }
  destruct (check_proto c y0 (isub x e) e'); auto. apply More.
Qed.

(** FIXE = f: f + 1 sifts, unless MAX_ITERATION or the extrema run out first. *)
Lemma sift2_fixe left : forall k n_h x e y b, rect n m x -> rect n m e ->
  FIXE2 c <> 0 -> 0 <= k <= FIXE2 c ->
  sift2 sbs c left k n_h x e = Ok (y, b) ->
  exists j, over j x e y /\
    (b = true /\ j = Nat.min left (Z.to_nat (FIXE2 c + 1 - k)) \/
     b = false /\ (j < Nat.min left (Z.to_nat (FIXE2 c + 1 - k)))%nat /\ ~ five_each n m y).
Proof.
  induction left as [|left IH]; intros k n_h x e y b Hx He Hf Hk; cbn [sift2].
  { intros [= <- <-]. exists 0%nat. split; [constructor|]. left. split; auto. }
  assert (G := enough2 n m x Hx Hn). destruct (find_extrema2 x) as [mins maxs].
  destruct ((4 <? zlen mins) && (4 <? zlen maxs)) eqn:E4.
  2:{ intros [= <- <-]. exists 0%nat. split; [constructor|]. right. split; auto. split; [lia|]. intros F. apply G in F. congruence. }
  apply proj1 in G. specialize (G eq_refl).
  assert (Hx' : rect n m (isub x e)) by (apply rect_imap2; auto).
  destruct (envelopes2 sbs (isub x e)) as [[lo up]|] eqn:EV; cbn [bind]; [|discriminate].
  destruct (envelopes2_rect sbs n m _ _ _ Hs Hx' Hn EV) as [Rl Ru].
  fold (half_of lo up). set (e' := half_of lo up).
  assert (He' : rect n m e') by (apply rect_imap, rect_imap2; auto).
  set (y0 := isub (isub x e) e'). assert (Hy0 : rect n m y0) by (apply rect_imap2; auto).
  assert (Step : forall j z, over j y0 e' z -> over (Datatypes.S j) x e z).
  { intros j z Hz. eapply over_more; eauto using minus_isub, midway_half. }
  replace (negb (FIXE2 c =? 0)) with true by lia.
  destruct (Z.leb_spec (FIXE2 c + 1) (k + 1)).
  - intros [= <- <-]. exists 1%nat. split; [apply Step; constructor|]. left. split; auto. lia.
  - intros R. destruct (IH (k + 1) n_h y0 e' y b Hy0 He' Hf ltac:(lia) R) as (j & Oj & C).
    exists (Datatypes.S j). split; [apply Step; auto|]. destruct C as [[-> ->]|(-> & Lj & NF)]; [left|right]; repeat split; auto; lia.
Qed.

Lemma sift2_no_fuel left : (forall ps vs xi yi, sbs ps vs xi yi <> Raise OutOfFuel) ->
  forall k n_h x e, sift2 sbs c left k n_h x e <> Raise OutOfFuel.
Proof.
  intros Hf. induction left as [|left IH]; intros k n_h x e; cbn [sift2]; [discriminate|].
  destruct (find_extrema2 x) as [mins maxs]. destruct (_ && _); [|discriminate].
  unfold envelopes2. destruct (find_extrema2 (prepare_image (isub x e))) as [mi ma].
  destruct (sbs mi _ _ _) eqn:E1; cbn [bind]; [|intros [= ->]; exact (Hf _ _ _ _ E1)].
  destruct (sbs ma _ _ _) eqn:E2; cbn [bind]; [|intros [= ->]; exact (Hf _ _ _ _ E2)].
  repeat match goal with |- (if ?b then _ else _) <> _ => destruct b end; try discriminate; apply IH.
Qed.
End Sift2.

(** ** The outer loop *)
Lemma isub_rest n m x l : rect n m x -> Forall (rect n m) l ->
  rect n m (isub x (isum x l)) /\
  forall i j, (i < n)%nat -> (j < m)%nat -> pixel (isub x (isum x l)) i j = (pixel x i j - stack_sum l i j)%Qc.
Proof.
  intros Hx F. destruct (isum_spec n m x l Hx F) as [R E].
  split; [apply rect_imap2; auto|]. intros i j Hi Hj. unfold isub. rewrite (pixel_imap2 n m), E by auto. reflexivity.
Qed.

Lemma modes2_spec n m (sift : img -> res (img * bool)) (step : img -> img -> Prop) image image_s max_imf :
  rect n m image_s ->
  (forall r y b, rect n m r -> sift r = Ok (y, b) -> rect n m y /\ step r y) ->
  forall fuel IMF R, Forall (rect n m) IMF -> peeled n m step image_s IMF ->
  modes2 sift fuel image image_s max_imf IMF = Ok R ->
  Forall (rect n m) R /\ peeled n m step image_s R /\ R <> [] /\
  (0 < max_imf -> zlen IMF < max_imf -> zlen R <= max_imf).
Proof.
  intros Hx Hsift. induction fuel as [|fuel IH]; intros IMF R F P; cbn [modes2]; [discriminate|].
  destruct (isub_rest n m image_s IMF Hx F) as [Rr Er].
  destruct (sift (isub image_s (isum image_s IMF))) as [[imf b]|] eqn:E; cbn [bind]; [|discriminate].
  destruct (Hsift _ _ _ Rr E) as [Ry St].
  assert (F' : Forall (rect n m) (IMF ++ [imf])) by (apply Forall_app; auto).
  assert (P' : peeled n m step image_s (IMF ++ [imf])).
  { intros l c0 r EQ. destruct r as [|z r] using rev_ind.
    - apply app_inj_tail in EQ. destruct EQ as [<- <-]. exists (isub image_s (isum image_s IMF)). auto.
    - clear IHr. rewrite app_comm_cons, app_assoc in EQ. apply app_inj_tail in EQ. destruct EQ as [EQ _]. apply (P l c0 r EQ). }
  assert (L : zlen (IMF ++ [imf]) = zlen IMF + 1) by (unfold zlen; rewrite app_length; cbn; lia).
  assert (NE : IMF ++ [imf] <> []) by (destruct IMF; discriminate).
  destruct (iallclose _ _ _ || _) eqn:EE.
  { intros [= <-]. split; [auto|]. split; [auto|]. split; [auto|]. lia. }
  destruct b.
  - intros HR. apply orb_false_elim in EE. destruct EE as [_ EE].
    destruct (IH _ _ F' P' HR) as (A & B & C & D). split; [auto|]. split; [auto|]. split; [auto|]. intros. apply D; lia.
  - intros [= <-]. split; [auto|]. split; [auto|]. split; [auto|]. lia.
Qed.

Lemma modes2_total (sift : img -> res (img * bool)) image image_s max_imf : 0 < max_imf ->
  (forall r, sift r <> Raise OutOfFuel) ->
  forall fuel IMF, max_imf <= Z.of_nat fuel + zlen IMF -> (0 < fuel)%nat ->
  modes2 sift fuel image image_s max_imf IMF <> Raise OutOfFuel.
Proof.
  intros Hm Hs. induction fuel as [|fuel IH]; intros IMF Hf Hp; [lia|]. cbn [modes2].
  destruct (sift _) as [[imf b]|] eqn:E; cbn [bind]; [|intros [= ->]; exact (Hs _ E)].
  destruct (iallclose _ _ _); cbn [orb]; [discriminate|].
  assert (L : zlen (IMF ++ [imf]) = zlen IMF + 1) by (unfold zlen; rewrite app_length; cbn; lia).
  rewrite L. replace (0 <? max_imf) with true by lia. cbn [andb].
  destruct (Z.leb_spec max_imf (zlen IMF + 1)); [discriminate|].
  destruct b; [|discriminate]. apply IH; lia.
Qed.

Lemma with_residue_spec n m x l : rect n m x -> Forall (rect n m) l ->
  exists tail, with_residue x l = l ++ tail /\ Forall (rect n m) tail /\ (length tail <= 1)%nat /\
  forall i j, (i < n)%nat -> (j < m)%nat ->
    (tail = [] /\ within tol (pixel x i j - stack_sum l i j)%Qc \/
     tail <> [] /\ (stack_sum (l ++ tail) i j = pixel x i j)%Qc).
Proof.
  intros Hx F. destruct (isub_rest n m x l Hx F) as [R E]. unfold with_residue.
  set (r := isub x (isum x l)) in *. destruct (forallb allclose0 r) eqn:A.
  - exists []. split; [rewrite app_nil_r; auto|]. split; [constructor|]. split; [cbn; lia|]. intros i j Hi Hj. left. split; auto.
    rewrite <- E by auto. rewrite forallb_forall in A.
    assert (In (nth i r []) r) by (apply nth_In; rewrite (proj1 R); auto).
    specialize (A _ H). apply negligible_iff in A. unfold negligible in A. rewrite Forall_forall in A. apply A.
    apply nth_In. rewrite (rect_row n m); auto.
  - exists [r]. split; auto. split; [constructor; auto|]. split; [cbn; lia|]. intros i j Hi Hj. right. split; [discriminate|].
    rewrite stack_sum_app. unfold stack_sum at 2. cbn [map fold_right]. rewrite E by auto. ring.
Qed.

Lemma on_last_snoc {X} (f : list (list X) -> list (list X)) l a : on_last f (l ++ [a]) = l ++ [f a].
Proof. unfold on_last. rewrite rev_app_distr. cbn [rev app]. rewrite rev_involutive. reflexivity. Qed.

(** ** EMD2D.emd *)
Lemma concat_In n m (x : img) y : rect n m x -> In y (concat x) <-> exists i j, (i < n /\ j < m)%nat /\ pixel x i j = y.
Proof.
  intros Hx. rewrite in_concat. split.
  - intros (r & Hr & Hy). destruct (In_nth _ _ [] Hr) as (i & Hi & <-). destruct (In_nth _ _ 0%Qc Hy) as (j & Hj & <-).
    rewrite (proj1 Hx) in Hi. rewrite (rect_row n m) in Hj by auto. exists i, j. auto.
  - intros (i & j & [Hi Hj] & <-). exists (nth i x []). split; [apply nth_In; rewrite (proj1 Hx); auto|].
    apply nth_In. rewrite (rect_row n m); auto.
Qed.

(** The grey levels mapped to [0, 1]. *)

Lemma emd2d_spec sbs c fuel image max_imf n m rows : surface_ok sbs -> (0 < n)%nat -> rect n m image ->
  emd2d sbs c fuel image max_imf = Ok rows ->
  exists lo hi xs comps tail, darkest n m image lo /\ brightest n m image hi /\ (lo < hi)%Qc /\
    normalised n m lo hi image xs /\ comps <> [] /\
    peeled n m (fun r y => exists b, sift2 sbs c (Z.to_nat (MAX_ITERATION2 c)) 0 0 r (izeros image) = Ok (y, b)) xs comps /\
    (0 < max_imf -> zlen comps <= max_imf) /\
    (length tail <= 1)%nat /\ Forall (rect n m) rows /\ length rows = length (comps ++ tail) /\
    (forall l a z k, comps ++ tail = l ++ a :: z -> length l = k ->
       forall i j, (i < n)%nat -> (j < m)%nat -> pixel (nth k rows []) i j =
         (pixel a i j * (hi - lo) + match z with [] => lo | _ => 0 end)%Qc) /\
    forall i j, (i < n)%nat -> (j < m)%nat ->
      within (tol * (hi - lo))%Qc (pixel image i j - stack_sum rows i j)%Qc /\
      (tail <> [] -> stack_sum rows i j = pixel image i j).
Proof.
  intros Hs Hn Hx. unfold emd2d.
  destruct (np_min (concat image)) as [lo|] eqn:E1; cbn [bind]; [|discriminate].
  destruct (np_max (concat image)) as [hi|] eqn:E2; cbn [bind]; [|discriminate].
  apply np_min_spec in E1. apply np_max_spec in E2. destruct E1 as [I1 U1], E2 as [I2 U2].
  change neqb with Qc_eqb. change nsub with Qcminus. change ndiv with Qcdiv. change nmul with Qcmult. change nadd with Qcplus.
  destruct (Qc_eqb (hi - lo) n0) eqn:EZ; [discriminate|]. apply Qc_eqb_neq in EZ. change n0 with 0%Qc in EZ.
  assert (Dk : darkest n m image lo).
  { split; [apply (concat_In n m) in I1; auto|]. intros i j Hi Hj. apply U1. apply (concat_In n m); eauto. }
  assert (Br : brightest n m image hi).
  { split; [apply (concat_In n m) in I2; auto|]. intros i j Hi Hj. apply U2. apply (concat_In n m); eauto. }
  assert (LH : (lo < hi)%Qc).
  { destruct (Qcle_lt_or_eq lo hi) as [H|H]; [apply U1; auto|auto|]. exfalso. apply EZ. rewrite H. ring. }
  set (xs := imap (fun y => ((y - lo) / (hi - lo))%Qc) image).
  assert (Hxs : rect n m xs) by (apply rect_imap; auto).
  assert (Nx : normalised n m lo hi image xs).
  { split; auto. intros i j Hi Hj. unfold xs. rewrite (pixel_imap n m) by auto. field. exact EZ. }
  destruct (modes2 _ _ _ _ _ _) as [comps|] eqn:EM; cbn [bind]; [|discriminate].
  destruct (modes2_spec n m (fun r => sift2 sbs c (Z.to_nat (MAX_ITERATION2 c)) 0 0 r (izeros image)) (fun r y => exists b, sift2 sbs c (Z.to_nat (MAX_ITERATION2 c)) 0 0 r (izeros image) = Ok (y, b))
    image xs max_imf Hxs) with (fuel := fuel) (IMF := @nil img) (R := comps) as (F & P & NE & LM); auto.
  { intros r y b Hr E. split; [|eauto].
    eapply (sift2_any sbs c n m Hs Hn) in E; auto; [apply E|apply rect_zeros; auto]. }
  { intros l c0 r EQ. destruct l; discriminate. }
  destruct (with_residue_spec n m xs comps Hxs F) as (tail & -> & Ft & Lt & Hsum).
  assert (Fall : Forall (rect n m) (comps ++ tail)) by (apply Forall_app; auto).
  set (all := comps ++ tail) in *. assert (NA : all <> []) by (unfold all; destruct comps; [congruence|discriminate]).
  intros [= <-]. exists lo, hi, xs, comps, tail.
  destruct (exists_last NA) as (init & z & Eall).
  assert (Fi : Forall (rect n m) init /\ rect n m z).
  { rewrite Eall in Fall. apply Forall_app in Fall. destruct Fall as [A B]. inversion_clear B. auto. }
  destruct Fi as [Fi Fz].
  set (sc := imap (fun y : Qc => (y * (hi - lo))%Qc)). set (off := imap (fun y : Qc => (y + lo)%Qc)).
  assert (Rows : on_last off (map sc all) = map sc init ++ [off (sc z)]) by (rewrite Eall, map_app; apply on_last_snoc).
  rewrite Rows. fold all.
  assert (Psc : forall a i j, rect n m a -> (i < n)%nat -> (j < m)%nat -> pixel (sc a) i j = (pixel a i j * (hi - lo))%Qc).
  { intros. unfold sc. rewrite (pixel_imap n m); auto. }
  assert (Poff : forall i j, (i < n)%nat -> (j < m)%nat -> pixel (off (sc z)) i j = (pixel z i j * (hi - lo) + lo)%Qc).
  { intros. unfold off. rewrite (pixel_imap n m) by (auto; apply rect_imap; auto). rewrite Psc; auto. }
  assert (SS : forall i j, (i < n)%nat -> (j < m)%nat ->
    (stack_sum (map sc init ++ [off (sc z)]) i j = stack_sum all i j * (hi - lo) + lo)%Qc).
  { intros i j Hi Hj. rewrite Eall, !stack_sum_app. unfold stack_sum at 2 4. cbn [map fold_right]. rewrite Poff by auto.
    assert (G : forall l, Forall (rect n m) l -> (stack_sum (map sc l) i j = stack_sum l i j * (hi - lo))%Qc).
    { induction 1 as [|a l Ha Hl IHl]; [unfold stack_sum; cbn; ring|].
      unfold stack_sum in *. cbn [map fold_right]. rewrite IHl, Psc by auto. ring. }
    rewrite G by auto. ring. }
  split; [auto|]. split; [auto|]. split; [auto|]. split; [auto|]. split; [auto|]. split; [auto|].
  split; [intros; apply LM; auto; unfold zlen; cbn; lia|].
  split; [auto|]. split.
  { apply Forall_app. split; [|constructor; [apply rect_imap, rect_imap; auto|constructor]].
    rewrite Forall_map. eapply Forall_impl; [|exact Fi]. cbn. intros. apply rect_imap. auto. }
  split; [rewrite Eall, !app_length, map_length; auto|]. split.
  { intros l a t k EQ Lk i j Hi Hj. subst k. rewrite Eall in EQ.
    destruct t as [|b t] using rev_ind.
    - apply app_inj_tail in EQ. destruct EQ as [<- <-]. rewrite app_nth2 by (rewrite map_length; lia).
      rewrite map_length, Nat.sub_diag. cbn [nth]. apply Poff; auto.
    - clear IHt. rewrite app_comm_cons, app_assoc in EQ. apply app_inj_tail in EQ. destruct EQ as [EQ _].
      assert (Ha : rect n m a). { rewrite EQ in Fi. apply Forall_app in Fi. destruct Fi as [_ B]. inversion_clear B. auto. }
      rewrite EQ, map_app. rewrite <- app_assoc. rewrite app_nth2 by (rewrite map_length; lia).
      rewrite map_length, Nat.sub_diag. cbn [map app nth]. rewrite Psc by auto.
      destruct (t ++ [b]) eqn:ET; [destruct t; discriminate|]. ring. }
  intros i j Hi Hj. rewrite SS by auto. destruct Nx as [_ Nx]. specialize (Nx i j Hi Hj).
  destruct (Hsum i j Hi Hj) as [[-> W]|[NT W]].
  - split; [|congruence]. unfold all. rewrite app_nil_r.
    replace (pixel image i j - (stack_sum comps i j * (hi - lo) + lo))%Qc
      with ((pixel xs i j - stack_sum comps i j) * (hi - lo))%Qc by (rewrite <- Nx; ring).
    assert (PH : (0 <= hi - lo)%Qc) by qclra. destruct W as [W1 W2]. split.
    + replace (- (tol * (hi - lo)))%Qc with (- tol * (hi - lo))%Qc by ring. apply Qcmult_le_compat_r; auto.
    + apply Qcmult_le_compat_r; auto.
  - assert (Z : (stack_sum all i j * (hi - lo) + lo = pixel image i j)%Qc) by (rewrite <- Nx; rewrite W; ring).
    rewrite Z. split; auto. replace (pixel image i j - pixel image i j)%Qc with 0%Qc by ring.
    assert (PH : (0 <= tol * (hi - lo))%Qc).
    { replace 0%Qc with (0 * (hi - lo))%Qc by ring. apply Qcmult_le_compat_r; [discriminate|qclra]. }
    clear - PH. revert PH. generalize (tol * (hi - lo))%Qc. intros b PH. split; qclra.
Qed.
