(** * BemdProofs: the BEMD class. *)
From Verif Require Import PyFacts QcFacts Spec Image ImageSpec EmdExact ImageProofs ImageSift.
From Coq Require Import ZifyBool ZifyNat QArith Qcanon Sorting.Sorted.
Open Scope Z_scope.

(** At least two positions of either kind. *)
Definition two_each (rec : reconstruction Qc) (x : img) : Prop :=
  (2 <= length (minima_positions rec x))%nat /\ (2 <= length (maxima_positions rec x))%nat.
Definition env_b (rec : reconstruction Qc) (f : rbf Qc) (x lower upper : img) : Prop :=
  envelopes_b f x (minima_positions rec x) (maxima_positions rec x) = Ok (lower, upper).

Lemma envelopes_b_rect f n m x mins maxs a b : rbf_ok f -> rect n m x -> (0 < n)%nat ->
  envelopes_b f x mins maxs = Ok (a, b) -> rect m n a /\ rect m n b.
Proof.
  intros Hf Hx Hn. unfold envelopes_b. rewrite (nrows_rect n m), (ncols_rect n m) by auto.
  destruct (mapM (pick x) mins) as [v1|]; cbn [bind]; [|discriminate].
  destruct (mapM (pick x) maxs) as [v2|]; cbn [bind]; [|discriminate].
  destruct (f mins v1 n m) as [e1|] eqn:E1; cbn [bind]; [|discriminate].
  destruct (f maxs v2 n m) as [e2|] eqn:E2; cbn [bind]; [|discriminate].
  intros [= <- <-]. apply Hf in E1, E2. auto.
Qed.
Lemma same_shape_iff n m p q (x y : img) : rect n m x -> rect p q y -> (0 < n)%nat -> (0 < p)%nat ->
  same_shape x y = true <-> n = p /\ m = q.
Proof.
  intros Hx Hy Hn Hp. unfold same_shape. rewrite (nrows_rect n m), (ncols_rect n m), (nrows_rect p q y), (ncols_rect p q y) by auto.
  lia.
Qed.

Section SiftB.
Variable rec : reconstruction Qc.
Variable f : rbf Qc.
Variable c : cfg2 Qc.
Hypothesis Hf : rbf_ok f.

Section Square.
Variable n : nat.
Hypothesis Hn : (0 < n)%nat.
Notation sift_rel := (sifted n n (two_each rec) (env_b rec f)).

Lemma sift_b_any left : forall k n_h x y b, rect n n x ->
  sift_b rec f c left k n_h x = Ok (y, b) ->
  rect n n y /\ b = true /\ exists j, (j <= left)%nat /\ sift_rel j x y.
Proof.
  induction left as [|left IH]; intros k n_h x y b Hx; cbn [sift_b].
  { intros [= <- <-]. split; auto. split; auto. exists 0%nat. split; [lia|constructor]. }
  destruct ((1 <? zlen (minima_positions rec x)) && (1 <? zlen (maxima_positions rec x))) eqn:E4.
  2:{ intros [= <- <-]. split; auto. split; auto. exists 0%nat. split; [lia|constructor]. }
  assert (G : two_each rec x) by (unfold two_each, zlen in *; lia).
  destruct (envelopes_b f x _ _) as [[lo up]|] eqn:EV; cbn [bind]; [|discriminate].
  destruct (envelopes_b_rect f n n x _ _ _ _ Hf Hx Hn EV) as [Rl Ru].
  fold (half_of lo up). set (e' := half_of lo up).
  assert (He' : rect n n e') by (apply rect_imap, rect_imap2; auto).
  assert (SS : same_shape x e' = true) by (apply (same_shape_iff n n n n); auto). rewrite SS. cbn [negb].
  set (y0 := isub x e'). assert (Hy0 : rect n n y0) by (apply rect_imap2; auto).
  assert (Step : forall j z, sift_rel j y0 z -> sift_rel (Datatypes.S j) x z).
  { intros j z Hz. eapply sifted_more; eauto using minus_isub, midway_half. }
  assert (Stop : Ok (y0, true) = Ok (y, b) -> rect n n y /\ b = true /\ exists j, (j <= Datatypes.S left)%nat /\ sift_rel j x y).
  { intros [= <- <-]. split; auto. split; auto. exists 1%nat. split; [lia|]. apply Step; constructor. }
  assert (More : forall k n_h, sift_b rec f c left k n_h y0 = Ok (y, b) ->
    rect n n y /\ b = true /\ exists j, (j <= Datatypes.S left)%nat /\ sift_rel j x y).
  { intros k' nh' R. destruct (IH _ _ _ _ _ Hy0 R) as (Ry & Bj & j & Lj & Oj). split; auto. split; auto.
    exists (Datatypes.S j). split; [lia|]. auto. }
  destruct (negb (FIXE2 c =? 0)).
  { destruct (FIXE2 c + 1 <=? k + 1); auto. apply More. }
  destruct (negb (FIXE_H2 c =? 0)).
  { destruct (k + 1 =? 1); [apply More|]. destruct (FIXE_H2 c <=? _); auto. apply More. }
  destruct (check_proto_b c y0 x e'); auto. apply More.
Qed.

Lemma sift_b_fixe left : forall k n_h x y b, rect n n x ->
  FIXE2 c <> 0 -> 0 <= k <= FIXE2 c ->
  sift_b rec f c left k n_h x = Ok (y, b) ->
  exists j, sift_rel j x y /\
    (j = Nat.min left (Z.to_nat (FIXE2 c + 1 - k)) \/
     (j < Nat.min left (Z.to_nat (FIXE2 c + 1 - k)))%nat /\ ~ two_each rec y).
Proof.
  induction left as [|left IH]; intros k n_h x y b Hx Hfx Hk; cbn [sift_b].
  { intros [= <- <-]. exists 0%nat. split; [constructor|]. left. auto. }
  destruct ((1 <? zlen (minima_positions rec x)) && (1 <? zlen (maxima_positions rec x))) eqn:E4.
  2:{ intros [= <- <-]. exists 0%nat. split; [constructor|]. right. split; [lia|]. intros F. unfold two_each, zlen in *. lia. }
  assert (G : two_each rec x) by (unfold two_each, zlen in *; lia).
  destruct (envelopes_b f x _ _) as [[lo up]|] eqn:EV; cbn [bind]; [|discriminate].
  destruct (envelopes_b_rect f n n x _ _ _ _ Hf Hx Hn EV) as [Rl Ru].
  fold (half_of lo up). set (e' := half_of lo up).
  assert (He' : rect n n e') by (apply rect_imap, rect_imap2; auto).
  assert (SS : same_shape x e' = true) by (apply (same_shape_iff n n n n); auto). rewrite SS. cbn [negb].
  set (y0 := isub x e'). assert (Hy0 : rect n n y0) by (apply rect_imap2; auto).
  assert (Step : forall j z, sift_rel j y0 z -> sift_rel (Datatypes.S j) x z).
  { intros j z Hz. eapply sifted_more; eauto using minus_isub, midway_half. }
  replace (negb (FIXE2 c =? 0)) with true by lia.
  destruct (Z.leb_spec (FIXE2 c + 1) (k + 1)).
  - intros [= <- <-]. exists 1%nat. split; [apply Step; constructor|]. left. lia.
  - intros R. destruct (IH (k + 1) n_h y0 y b Hy0 Hfx ltac:(lia) R) as (j & Oj & C).
    exists (Datatypes.S j). split; [apply Step; auto|]. destruct C as [->|(Lj & NF)]; [left|right]; repeat split; auto; lia.
Qed.
End Square.

(** An image that is not square and has extrema to sift raises. *)
Lemma sift_b_not_square n m left k n_h x : (0 < n)%nat -> (0 < m)%nat -> n <> m -> rect n m x -> two_each rec x ->
  exists e, sift_b rec f c (Datatypes.S left) k n_h x = Raise e.
Proof.
  intros Hn Hm Hnm Hx [G1 G2]. cbn [sift_b].
  replace ((1 <? zlen (minima_positions rec x)) && (1 <? zlen (maxima_positions rec x))) with true by (unfold zlen; lia).
  destruct (envelopes_b f x _ _) as [[lo up]|e] eqn:EV; cbn [bind]; [|eauto].
  destruct (envelopes_b_rect f n m x _ _ _ _ Hf Hx Hn EV) as [Rl Ru].
  fold (half_of lo up). set (e' := half_of lo up).
  assert (He' : rect m n e') by (apply rect_imap, rect_imap2; auto).
  assert (SS : same_shape x e' = false).
  { apply not_true_iff_false. intros E. apply (same_shape_iff n m m n) in E; auto. lia. }
  rewrite SS. cbn [negb]. eauto.
Qed.
Lemma sift_b_no_fuel left : (forall ps vs n m, f ps vs n m <> Raise OutOfFuel) ->
  forall k n_h x, sift_b rec f c left k n_h x <> Raise OutOfFuel.
Proof.
  intros Hff. induction left as [|left IH]; intros k n_h x; cbn [sift_b]; [discriminate|].
  destruct (_ && _); [|discriminate]. unfold envelopes_b.
  assert (MP : forall ps e, mapM (pick x) ps = Raise e -> e = IndexError).
  { induction ps as [|p ps IHp]; intros e; cbn [mapM]; [discriminate|].
    assert (PK : forall e, pick x p = Raise e -> e = IndexError).
    { intros e'. unfold pick. destruct (nth_error x (fst p)) as [r|]; [destruct (nth_error r (snd p))|]; congruence. }
    destruct (pick x p) as [v|e'] eqn:EP; cbn [bind]; [|intros [= <-]; auto].
    destruct (mapM (pick x) ps) as [vs|e'] eqn:EM; cbn [bind]; [discriminate|]. intros [= <-]. auto. }
  destruct (mapM (pick x) (minima_positions rec x)) eqn:M1; cbn [bind]; [|apply MP in M1; subst; discriminate].
  destruct (mapM (pick x) (maxima_positions rec x)) eqn:M2; cbn [bind]; [|apply MP in M2; subst; discriminate].
  destruct (f (minima_positions rec x) _ _ _) eqn:E1; cbn [bind]; [|intros [= ->]; exact (Hff _ _ _ _ E1)].
  destruct (f (maxima_positions rec x) _ _ _) eqn:E2; cbn [bind]; [|intros [= ->]; exact (Hff _ _ _ _ E2)].
  repeat match goal with |- (if ?b then _ else _) <> _ => destruct b end; try discriminate; apply IH.
Qed.
End SiftB.

Lemma isum_zero n m (x : img) : rect n m x -> isub x (isum x []) = x.
Proof.
  intros Hx. destruct (isub_rest n m x [] Hx (Forall_nil _)) as [R E]. apply (image_ext n m); auto.
  intros i j Hi Hj. rewrite E by auto. unfold stack_sum. cbn. ring.
Qed.

Lemma bemd_spec rec f c fuel image max_imf n rows : rbf_ok f -> (0 < n)%nat -> rect n n image ->
  bemd rec f c fuel image max_imf = Ok rows ->
  exists comps tail, rows = comps ++ tail /\ comps <> [] /\ Forall (rect n n) rows /\
    peeled n n (fun r y => sift_b rec f c (Z.to_nat (MAX_ITERATION2 c)) 0 0 r = Ok (y, true)) image comps /\
    (0 < max_imf -> zlen comps <= max_imf) /\ (length tail <= 1)%nat /\
    forall i j, (i < n)%nat -> (j < n)%nat ->
      within tol (pixel image i j - stack_sum rows i j)%Qc /\
      (tail <> [] -> stack_sum rows i j = pixel image i j).
Proof.
  intros Hf Hn Hx. unfold bemd.
  destruct (modes2 _ _ _ _ _ _) as [comps|] eqn:EM; cbn [bind]; [|discriminate].
  destruct (modes2_spec n n (fun r => sift_b rec f c (Z.to_nat (MAX_ITERATION2 c)) 0 0 r)
     (fun r y => sift_b rec f c (Z.to_nat (MAX_ITERATION2 c)) 0 0 r = Ok (y, true))
    image image max_imf Hx) with (fuel := fuel) (IMF := @nil img) (R := comps) as (F & P & NE & LM); auto.
  { intros r y b Hr E. destruct (sift_b_any rec f c Hf n Hn _ _ _ _ _ _ Hr E) as (Ry & -> & _). auto. }
  { intros l c0 r EQ. destruct l; discriminate. }
  destruct (with_residue_spec n n image comps Hx F) as (tail & -> & Ft & Lt & Hsum).
  intros [= <-]. exists comps, tail. split; [auto|]. split; [auto|]. split; [apply Forall_app; auto|]. split; [auto|].
  split; [intros; apply LM; auto; unfold zlen; cbn; lia|]. split; [auto|].
  intros i j Hi Hj. destruct (Hsum i j Hi Hj) as [[-> W]|[NT W]].
  - split; [|congruence]. rewrite app_nil_r. exact W.
  - rewrite W. split; auto. replace (pixel image i j - pixel image i j)%Qc with 0%Qc by ring. split; discriminate.
Qed.

Lemma bemd_not_square rec f c fuel image max_imf n m : rbf_ok f -> (0 < n)%nat -> (0 < m)%nat -> n <> m ->
  rect n m image -> two_each rec image -> 0 < MAX_ITERATION2 c -> (0 < fuel)%nat ->
  exists e, bemd rec f c fuel image max_imf = Raise e.
Proof.
  intros Hf Hn Hm Hnm Hx G HM Hfu. unfold bemd. destruct fuel as [|fuel]; [lia|]. cbn [modes2].
  rewrite (isum_zero n m) by auto.
  replace (Z.to_nat (MAX_ITERATION2 c)) with (Datatypes.S (Z.to_nat (MAX_ITERATION2 c - 1))) by lia.
  destruct (sift_b_not_square rec f c Hf n m (Z.to_nat (MAX_ITERATION2 c - 1)) 0 0 image Hn Hm Hnm Hx G) as [e ->].
  cbn [bind]. eauto.
Qed.
Lemma bemd_total rec f c fuel image max_imf : (forall ps vs n m, f ps vs n m <> Raise OutOfFuel) ->
  0 < max_imf -> (Z.to_nat max_imf <= fuel)%nat -> bemd rec f c fuel image max_imf <> Raise OutOfFuel.
Proof.
  intros Hf Hm Hfu. unfold bemd.
  assert (T := modes2_total (fun r => sift_b rec f c (Z.to_nat (MAX_ITERATION2 c)) 0 0 r) image image max_imf Hm
    ltac:(intros; apply sift_b_no_fuel; auto) fuel [] ltac:(unfold zlen; cbn; lia) ltac:(lia)).
  destruct (modes2 _ _ _ _ _ _) as [r|e]; cbn [bind]; congruence.
Qed.
Lemma emd2d_total sbs c fuel image max_imf : (forall ps vs xi yi, sbs ps vs xi yi <> Raise OutOfFuel) ->
  0 < max_imf -> (Z.to_nat max_imf <= fuel)%nat -> emd2d sbs c fuel image max_imf <> Raise OutOfFuel.
Proof.
  intros Hf Hm Hfu. unfold emd2d. destruct (concat image) as [|a l] eqn:E; [cbn [np_min bind]; discriminate|].
  destruct (np_min (a :: l)) as [lo|] eqn:E1; [|discriminate E1]. destruct (np_max (a :: l)) as [hi|] eqn:E2; [|discriminate E2].
  cbn [bind]. destruct (neqb _ _); [discriminate|].
  match goal with |- context [modes2 ?s fuel image ?xs max_imf []] =>
    assert (T := modes2_total s image xs max_imf Hm ltac:(intros; apply sift2_no_fuel; auto) fuel []
      ltac:(unfold zlen; cbn; lia) ltac:(lia)); destruct (modes2 s fuel image xs max_imf []) as [r|e] end;
  cbn [bind]; congruence.
Qed.

(** ** Which pixels are reported *)
Lemma neighbour_sym i j a b : neighbour i j a b -> neighbour a b i j.
Proof. unfold neighbour. lia. Qed.
Lemma reconstructed_below n m s x r : rect n m x ->
  (forall i j, (i < n)%nat -> (j < m)%nat -> (pixel s i j <= pixel x i j)%Qc) ->
  reconstructed n m s x r -> forall i j, (i < n)%nat -> (j < m)%nat -> (pixel r i j <= pixel x i j)%Qc.
Proof.
  intros Hx Hs [_ L]. apply L. split; auto. split; auto. intros. left. apply Qcle_refl.
Qed.
Lemma finite_choice {B} (P : B -> Prop) (l : list B) : (forall a b : B, {a = b} + {a <> b}) ->
  ~ ~ exists f : B -> bool, forall p, In p l -> (f p = true <-> P p).
Proof.
  intros D. induction l as [|a l IH].
  - intros N. apply N. exists (fun _ => true). intros p [].
  - intros N. apply IH. intros [f Hf].
    assert (T : ~ ~ (P a \/ ~ P a)) by tauto. apply T. intros [Y|Y]; apply N.
    + exists (fun p => if D p a then true else f p). intros p [<-|I]; destruct (D _ _); subst; try tauto. auto.
    + exists (fun p => if D p a then false else f p). intros p [<-|I]; destruct (D _ _); subst; try tauto.
      * split; [discriminate|tauto].
      * split; [discriminate|tauto].
      * auto.
Qed.
Lemma below_gap (a : Qc) (l : list Qc) : exists b, (b < a)%Qc /\ forall v, In v l -> (v < a)%Qc -> (v <= b)%Qc.
Proof.
  induction l as [|v l [b [Hb IH]]].
  - exists (a - 1)%Qc. split; [qclra|intros v []].
  - destruct (Qclt_le_dec v a) as [C|C].
    + destruct (Qclt_le_dec b v) as [C2|C2].
      * exists v. split; auto. intros w [<-|I] Hw; [apply Qcle_refl|]. specialize (IH w I Hw). qclra.
      * exists b. split; auto. intros w [<-|I] Hw; auto.
    + exists b. split; auto. intros w [<-|I] Hw; auto. qclra.
Qed.
Definition build (n m : nat) (f : nat -> nat -> Qc) : img := map (fun i => map (f i) (seq 0 m)) (seq 0 n).
Lemma rect_build n m f : rect n m (build n m f).
Proof.
  split; unfold build; [rewrite map_length, seq_length; auto|].
  apply Forall_forall. intros r I. apply in_map_iff in I. destruct I as (i & <- & _). rewrite map_length, seq_length. auto.
Qed.
Lemma pixel_build n m f i j : (i < n)%nat -> (j < m)%nat -> pixel (build n m f) i j = f i j.
Proof.
  intros Hi Hj. unfold pixel, build.
  rewrite (nth_indep _ [] (map (f 0%nat) (seq 0 m))) by (rewrite map_length, seq_length; auto).
  rewrite (map_nth (fun i => map (f i) (seq 0 m))). rewrite seq_nth by auto. cbn [plus].
  rewrite (nth_indep _ 0%Qc (f i 0%nat)) by (rewrite map_length, seq_length; auto).
  rewrite map_nth, seq_nth by auto. reflexivity.
Qed.

(** The reconstruction reaches level [a <= x(i,j)] at (i, j) exactly if some walk at level [a]
    leads to a pixel where [s] is that high. *)
Lemma walk_rises n m s x r a i j k l : grown n m s x r -> walk n m x a i j k l ->
  (a <= pixel s k l)%Qc -> (a <= pixel r i j)%Qc.
Proof.
  intros (R & S & C) W Hs. induction W as [i j Hi Hj Ha|i j i' j' k l Hi Hj Ha Nb W IH].
  - eapply Qcle_trans; [exact Hs|]. auto.
  - specialize (IH Hs). assert ((i' < n)%nat /\ (j' < m)%nat) as [Hi' Hj'] by (inversion W; auto).
    destruct (C i j i' j' Hi Hj Hi' Hj' Nb) as [Q|Q]; [exact (Qcle_trans _ _ _ Ha Q)|exact (Qcle_trans _ _ _ IH Q)].
Qed.
Lemma no_walk_low n m s x r a i j : rect n m x -> (i < n)%nat -> (j < m)%nat ->
  (forall i j, (i < n)%nat -> (j < m)%nat -> (pixel s i j <= pixel x i j)%Qc) ->
  reconstructed n m s x r ->
  ~ (exists k l, walk n m x a i j k l /\ (a <= pixel s k l)%Qc) -> (pixel r i j < a)%Qc.
Proof.
  intros Hx Hi Hj Hs HR No. destruct (Qclt_le_dec (pixel r i j) a) as [C|C]; auto. exfalso.
  assert (Below := reconstructed_below n m s x r Hx Hs HR). destruct HR as [(Rr & Rs & Rc) Least].
  set (good := fun p : nat * nat => exists k l, walk n m x a (fst p) (snd p) k l /\ (a <= pixel s k l)%Qc).
  apply (finite_choice good (grid n m)); [decide equality; apply Nat.eq_dec|]. intros [f Hf].
  destruct (below_gap a (concat s ++ concat r ++ map (fun p => pixel s (fst p) (snd p)) (grid n m))) as (b & Hb & Hgap).
  assert (Gs : forall i j, (i < n)%nat -> (j < m)%nat -> (pixel s i j < a)%Qc -> (pixel s i j <= b)%Qc).
  { intros i' j' Hi' Hj' L. apply Hgap; auto. apply in_or_app; right; apply in_or_app; right.
    apply in_map_iff. exists (i', j'). split; auto. apply grid_In. cbn. lia. }
  assert (Gr : forall i j, (i < n)%nat -> (j < m)%nat -> (pixel r i j < a)%Qc -> (pixel r i j <= b)%Qc).
  { intros i' j' Hi' Hj' L. apply Hgap; auto. apply in_or_app; right; apply in_or_app; left.
    apply (concat_In n m); eauto. }
  set (bad := fun i j => negb (f (i, j)) && Qc_leb a (pixel r i j)).
  set (r' := build n m (fun i j => if bad i j then b else pixel r i j)).
  assert (P' : forall i j, (i < n)%nat -> (j < m)%nat -> pixel r' i j = if bad i j then b else pixel r i j)
    by (intros; apply pixel_build; auto).
  assert (Fg : forall i j, (i < n)%nat -> (j < m)%nat -> f (i, j) = true <-> good (i, j)).
  { intros. apply Hf. apply grid_In. cbn. lia. }
  assert (G : grown n m s x r').
  { split; [apply rect_build|]. split.
    - intros i' j' Hi' Hj'. rewrite P' by auto. destruct (bad i' j') eqn:B; auto.
      apply Gs; auto. destruct (Qclt_le_dec (pixel s i' j') a) as [Q|Q]; auto. exfalso.
      unfold bad in B. apply andb_true_iff in B. destruct B as [B _]. apply negb_true_iff in B.
      assert (f (i', j') = true); [|congruence]. apply Fg; auto. exists i', j'. split; auto.
      apply walk_stay; auto. eapply Qcle_trans; [exact Q|]. auto.
    - intros i' j' a' b' Hi' Hj' Ha' Hb' Nb. rewrite !P' by auto.
      destruct (bad i' j') eqn:B.
      + destruct (bad a' b') eqn:B'; [right; apply Qcle_refl|].
        destruct (Qclt_le_dec (pixel r a' b') a) as [Q|Q]; [right; auto|]. exfalso.
        unfold bad in B, B'. apply andb_true_iff in B. destruct B as [B1 B2]. apply negb_true_iff in B1. apply Qc_leb_le in B2.
        apply andb_false_iff in B'. destruct B' as [B'|B'].
        * apply negb_false_iff in B'. apply Fg in B'; auto. destruct B' as (k & l & W & L).
          assert (f (i', j') = true); [|congruence]. apply Fg; auto. exists k, l. split; auto.
          cbn [fst snd] in *. eapply walk_step; eauto. eapply Qcle_trans; [exact B2|]. auto.
        * apply Qc_leb_le in Q. congruence.
      + destruct (Rc i' j' a' b' Hi' Hj' Ha' Hb' Nb) as [Q|Q]; auto. right.
        destruct (bad a' b') eqn:B'; auto. unfold bad in B'. apply andb_true_iff in B'. destruct B' as [_ B'].
        apply Qc_leb_le in B'. qclra. }
  specialize (Least r' G i j Hi Hj). rewrite P' in Least by auto.
  assert (B : bad i j = true).
  { unfold bad. apply andb_true_iff. split; [|apply Qc_leb_le; auto]. apply negb_true_iff.
    apply not_true_iff_false. rewrite Fg by auto. exact No. }
  rewrite B in Least. qclra.
Qed.

Lemma dimmed_pixel n m x i j : rect n m x -> (i < n)%nat -> (j < m)%nat -> pixel (dimmed x) i j = (pixel x i j - 1)%Qc.
Proof. intros. unfold dimmed. change (map (map (fun v => (v - 1)%Qc)) x) with (imap (fun v => (v - 1)%Qc) x). rewrite (pixel_imap n m); auto. Qed.
Lemma positions_In rec n m x i j : rect n m x -> (0 < n)%nat -> reconstructed n m (dimmed x) x (rec (dimmed x) x) ->
  In (j, i) (maxima_positions rec x) <-> prominent n m x i j.
Proof.
  intros Hx Hn Hr. unfold maxima_positions. change (imap (fun y : Qc => nsub y n1) x) with (dimmed x).
  set (R := rec _ x) in *. rewrite in_map_iff. assert (HR : rect n m R) by apply Hr.
  assert (Hs : forall i j, (i < n)%nat -> (j < m)%nat -> (pixel (dimmed x) i j <= pixel x i j)%Qc).
  { intros. rewrite (dimmed_pixel n m) by auto. qclra. }
  assert (K : (exists p, (snd p, fst p) = (j, i) /\ In p (filter (fun p => nltb n0 (pix (isub x R) (fst p) (snd p))) (grid (nrows x) (ncols x))))
    <-> (i < n /\ j < m)%nat /\ (pixel R i j < pixel x i j)%Qc).
  { split.
    - intros ([a b] & E & I). injection E as <- <-. apply filter_In in I. destruct I as [I P].
      apply grid_In in I. cbn [fst snd] in *. rewrite (nrows_rect n m), (ncols_rect n m) in I by auto. split; auto.
      change nltb with Qc_ltb in P. rewrite Qc_ltb_lt, pix_pixel in P. unfold isub in P. rewrite (pixel_imap2 n m) in P by (auto; lia).
      change nsub with Qcminus in P. change n0 with 0%Qc in P. qclra.
    - intros [[Hi Hj] P]. exists (i, j). split; auto. apply filter_In. split.
      + apply grid_In. cbn [fst snd]. rewrite (nrows_rect n m), (ncols_rect n m) by auto. auto.
      + cbn [fst snd]. change nltb with Qc_ltb. rewrite Qc_ltb_lt, pix_pixel. unfold isub. rewrite (pixel_imap2 n m) by auto.
        change nsub with Qcminus. change n0 with 0%Qc. qclra. }
  rewrite K. clear K. split.
  - intros [[Hi Hj] P]. split; [auto|]. split; [auto|]. intros (k & l & W & L).
    assert ((k < n)%nat /\ (l < m)%nat) as [Hk Hl] by (clear - W; induction W; auto).
    assert (Q := walk_rises n m _ x R _ i j k l (proj1 Hr) W). rewrite (dimmed_pixel n m) in Q by auto.
    assert (pixel x i j <= pixel R i j)%Qc by (apply Q; qclra). qclra.
  - intros (Hi & Hj & No). split; auto. apply (no_walk_low n m (dimmed x) x R); auto.
    intros (k & l & W & L). apply No. exists k, l. split; auto.
    assert ((k < n)%nat /\ (l < m)%nat) as [Hk Hl] by (clear - W; induction W; auto).
    rewrite (dimmed_pixel n m) in L by auto. qclra.
Qed.
Lemma positions_sorted rec x : StronglySorted before (map swap (maxima_positions rec x)).
Proof.
  unfold maxima_positions. rewrite map_map.
  replace (map _ _) with (filter (fun p => nltb n0 (pix (isub x (rec (imap (fun y => nsub y n1) x) x)) (fst p) (snd p))) (grid (nrows x) (ncols x))).
  - apply sorted_filter, grid_sorted.
  - symmetry. rewrite <- map_id. apply map_ext. intros [a b]. reflexivity.
Qed.
Lemma maxima_listed rec n m x : rect n m x -> (0 < n)%nat -> reconstructed n m (dimmed x) x (rec (dimmed x) x) ->
  listed (prominent n m x) (map swap (maxima_positions rec x)).
Proof.
  intros Hx Hn Hr. split; [apply positions_sorted|]. intros i j. rewrite <- (positions_In rec n m) by auto.
  rewrite in_map_iff. split.
  - intros ([a b] & E & I). injection E as <- <-. exact I.
  - intros I. exists (j, i). auto.
Qed.
Lemma negative_rect n m x : rect n m x -> rect n m (negative x).
Proof. intros. apply rect_imap; auto. Qed.
Lemma negative_pixel n m x i j : rect n m x -> (i < n)%nat -> (j < m)%nat -> pixel (negative x) i j = (- pixel x i j)%Qc.
Proof. intros. unfold negative. change (map (map Qcopp) x) with (imap Qcopp x). rewrite (pixel_imap n m); auto. Qed.
Lemma minima_listed rec n m x : rect n m x -> (0 < n)%nat ->
  reconstructed n m (dimmed (negative x)) (negative x) (rec (dimmed (negative x)) (negative x)) ->
  listed (prominent n m (negative x)) (map swap (minima_positions rec x)).
Proof. intros Hx Hn Hr. apply maxima_listed; auto. apply rect_imap; auto. Qed.

(** If all grey levels lie within an interval shorter than 1, every pixel is a "maximum" and
    every pixel a "minimum". *)
Lemma low_range_all n m x : rect n m x ->
  (forall i j a b, (i < n)%nat -> (j < m)%nat -> (a < n)%nat -> (b < m)%nat -> (pixel x i j - pixel x a b < 1)%Qc) ->
  forall i j, (i < n)%nat -> (j < m)%nat -> prominent n m x i j /\ prominent n m (negative x) i j.
Proof.
  intros Hx B i j Hi Hj. split; (split; [auto|]; split; [auto|]; intros (k & l & W & L)).
  - assert ((k < n)%nat /\ (l < m)%nat) as [Hk Hl] by (clear - W; induction W; auto).
    specialize (B k l i j Hk Hl Hi Hj). qclra.
  - assert ((k < n)%nat /\ (l < m)%nat) as [Hk Hl] by (clear - W; induction W; auto).
    rewrite !(negative_pixel n m) in L by auto. specialize (B i j k l Hi Hj Hk Hl). qclra.
Qed.

(** The value that goes with position (a, b): row a, column b of the image, although the extremum
    is in row b, column a. *)
Lemma pick_spec n m x a b : rect n m x -> (a < n)%nat -> (b < m)%nat -> pick x (a, b) = Ok (pixel x a b).
Proof.
  intros Hx Ha Hb. unfold pick, pixel. cbn [fst snd].
  rewrite (nth_error_nth' x []) by (rewrite (proj1 Hx); auto).
  rewrite (nth_error_nth' (nth a x []) 0%Qc) by (rewrite (rect_row n m); auto). reflexivity.
Qed.
Lemma pick_outside n m x a b : rect n m x -> (n <= a)%nat \/ ((a < n)%nat /\ (m <= b)%nat) -> pick x (a, b) = Raise IndexError.
Proof.
  intros Hx C. unfold pick. cbn [fst snd]. destruct C as [C|[C1 C2]].
  - replace (nth_error x a) with (@None (list Qc)); auto. symmetry. apply nth_error_None. rewrite (proj1 Hx). auto.
  - rewrite (nth_error_nth' x []) by (rewrite (proj1 Hx); auto).
    replace (nth_error (nth a x []) b) with (@None Qc); auto. symmetry. apply nth_error_None. rewrite (rect_row n m); auto.
Qed.

Lemma mapM_pick n m x ps : rect n m x -> (forall p, In p ps -> (fst p < n /\ snd p < m)%nat) ->
  mapM (pick x) ps = Ok (map (fun p => pixel x (fst p) (snd p)) ps).
Proof.
  intros Hx. induction ps as [|[a b] ps IH]; intros Hp; cbn [mapM map]; auto.
  destruct (Hp (a, b) ltac:(left; auto)) as [Ha Hb]. cbn [fst snd] in *. rewrite (pick_spec n m) by auto. cbn [bind].
  rewrite IH by (intros; apply Hp; right; auto). reflexivity.
Qed.
