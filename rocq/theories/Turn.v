(** * Turn: EMD2D of a turned image. *)
From Verif Require Import PyFacts QcFacts Spec Image ImageSpec EmdExact ImageProofs ImageSift BemdProofs ImageStop TurnSpec.
From Coq Require Import ZifyBool ZifyNat QArith Qcanon Sorting.Sorted Permutation.
Open Scope Z_scope.

Section Place.
Variable t : turning.
Lemma place_in n m p : (fst p < n)%nat -> (snd p < m)%nat -> (fst (place t n m p) < tall t n m /\ snd (place t n m p) < wide t n m)%nat.
Proof. destruct t, p; cbn; lia. Qed.
Lemma place_back n m p : (fst p < n)%nat -> (snd p < m)%nat -> place t (tall t n m) (wide t n m) (place t n m p) = p.
Proof. destruct t, p; cbn [place tall wide fst snd]; intros; f_equal; lia. Qed.
Lemma tall_back n m : tall t (tall t n m) (wide t n m) = n. Proof. destruct t; reflexivity. Qed.
Lemma wide_back n m : wide t (tall t n m) (wide t n m) = m. Proof. destruct t; reflexivity. Qed.
Lemma tall_pos n m : (0 < n)%nat -> (0 < m)%nat -> (0 < tall t n m)%nat. Proof. destruct t; auto. Qed.
Lemma wide_pos n m : (0 < n)%nat -> (0 < m)%nat -> (0 < wide t n m)%nat. Proof. destruct t; auto. Qed.
Lemma place_forth n m p : (fst p < tall t n m)%nat -> (snd p < wide t n m)%nat ->
  exists q, (fst q < n)%nat /\ (snd q < m)%nat /\ place t n m q = p.
Proof.
  intros A B. exists (place t (tall t n m) (wide t n m) p). destruct (place_in _ _ p A B) as [C D]. rewrite tall_back in C. rewrite wide_back in D.
  split; auto. split; auto. pose proof (place_back _ _ p A B) as E. rewrite tall_back, wide_back in E. exact E.
Qed.
Lemma turned_sym n m x y : turned t n m x y -> turned t (tall t n m) (wide t n m) y x.
Proof.
  intros (A & B & C). split; auto. rewrite tall_back, wide_back. split; auto. intros i j Hi Hj.
  destruct (place_forth n m (i, j) Hi Hj) as ([a b] & Ha & Hb & E). rewrite <- E, place_back by auto. cbn [fst snd] in *.
  rewrite <- C by auto. rewrite E. reflexivity.
Qed.
Lemma NoDup_grid n m : NoDup (grid n m).
Proof.
  pose proof (grid_sorted n m) as S. induction S as [|a l S IH F]; constructor; auto. intros I. rewrite Forall_forall in F. specialize (F _ I).
  unfold before in F. lia.
Qed.
Lemma grid_place n m : Permutation (grid (tall t n m) (wide t n m)) (map (place t n m) (grid n m)).
Proof.
  apply NoDup_Permutation; [apply NoDup_grid| |].
  - assert (G : forall l : list (nat * nat), NoDup l -> (forall p, In p l -> (fst p < n /\ snd p < m)%nat) -> NoDup (map (place t n m) l)).
    { induction l as [|p l IH]; intros N I; [constructor|]. inversion_clear N. cbn [map]. constructor; [|apply IH; auto; intros; apply I; right; auto].
      intros J. apply in_map_iff in J as (q & E & J). assert (p = q); [|subst; contradiction].
      destruct (I p (or_introl eq_refl)), (I q (or_intror J)). rewrite <- (place_back n m p), <- (place_back n m q), E by auto. reflexivity. }
    apply G; [apply NoDup_grid|]. intros p. apply grid_In.
  - intros p. rewrite grid_In, in_map_iff. split.
    + intros [A B]. destruct (place_forth n m p A B) as (q & C & D & E). exists q. split; auto. apply grid_In. auto.
    + intros (q & <- & I). apply grid_In in I. apply place_in; apply I.
Qed.
End Place.

(** ** Pixels of an image in a list *)
Lemma concat_grid n m (x : img) : rect n m x -> concat x = map (fun p => pixel x (fst p) (snd p)) (grid n m).
Proof.
  intros Hx. assert (G : forall k, (k <= n)%nat -> concat (skipn (n - k) x) = map (fun p => pixel x (fst p) (snd p)) (list_prod (seq (n - k) k) (seq 0 m))).
  { induction k as [|k IH]; intros Hk.
    - rewrite skipn_all2 by (rewrite (proj1 Hx); lia). reflexivity.
    - assert (E : skipn (n - S k) x = nth (n - S k) x [] :: skipn (n - k) x).
      { assert (L : (n - S k < length x)%nat) by (rewrite (proj1 Hx); lia). clear - L Hk. replace (n - k)%nat with (S (n - S k)) by lia. revert L.
        generalize (n - S k)%nat. intros a. revert x. induction a as [|a IH]; intros [|r x] L; cbn in *; try lia; auto. apply IH. lia. }
      rewrite E. cbn [concat seq list_prod]. rewrite map_app. f_equal.
      + rewrite map_map. cbn [fst snd]. unfold pixel. assert (L := rect_row n m x (n - S k) Hx ltac:(lia)). clear - L. revert L. generalize (nth (n - S k) x []).
        intros r <-. apply (nth_ext _ _ 0%Qc 0%Qc); [rewrite map_length, seq_length; auto|]. intros i Hi.
        rewrite (nth_map_lt _ _ _ O) by (rewrite seq_length; auto). rewrite seq_nth by auto. reflexivity.
      + replace (S (n - S k)) with (n - k)%nat by lia. apply IH. lia. }
  specialize (G n (le_n n)). rewrite Nat.sub_diag in G. exact G.
Qed.
Lemma combine_map {X Y Z} (f : X -> Y) (g : X -> Z) l : combine (map f l) (map g l) = map (fun p => (f p, g p)) l.
Proof. induction l as [|a l IH]; cbn; congruence. Qed.

Section Turn.
Variable t : turning.
Variables n m : nat.
Notation n' := (tall t n m).
Notation m' := (wide t n m).
Notation R := (turned t n m).

Lemma turned_grid x y : R x y -> map (fun p => pixel y (fst p) (snd p)) (map (place t n m) (grid n m)) = map (fun p => pixel x (fst p) (snd p)) (grid n m).
Proof.
  intros (A & B & C). rewrite map_map. apply map_ext_in. intros [i j] I. apply grid_In in I. apply C; apply I.
Qed.
Lemma turned_concat x y : R x y -> Permutation (concat y) (concat x).
Proof.
  intros E. rewrite (concat_grid n m x) by apply E. rewrite (concat_grid n' m' y) by apply E. rewrite <- (turned_grid x y E).
  apply Permutation_map, grid_place.
Qed.
Lemma turned_combine x y x2 y2 : R x y -> R x2 y2 -> Permutation (combine (concat y) (concat y2)) (combine (concat x) (concat x2)).
Proof.
  intros E E2. rewrite (concat_grid n m x), (concat_grid n m x2) by (apply E || apply E2).
  rewrite (concat_grid n' m' y), (concat_grid n' m' y2) by (apply E || apply E2). rewrite !combine_map.
  rewrite (Permutation_map _ (grid_place t n m)), map_map. apply Permutation_refl'. apply map_ext_in. intros [i j] I. apply grid_In in I.
  destruct E as (_ & _ & E), E2 as (_ & _ & E2). rewrite E, E2 by apply I. reflexivity.
Qed.
Lemma turned_imap f x y : R x y -> R (imap f x) (imap f y).
Proof.
  intros (A & B & C). split; [apply rect_imap; auto|]. split; [apply rect_imap; auto|]. intros i j Hi Hj.
  destruct (place_in t n m (i, j) Hi Hj). rewrite (pixel_imap n m f x) by auto. rewrite (pixel_imap n' m' f y) by auto. rewrite C; auto.
Qed.
Lemma turned_imap2 f x y x2 y2 : R x y -> R x2 y2 -> R (imap2 f x x2) (imap2 f y y2).
Proof.
  intros (A & B & C) (A2 & B2 & C2). split; [apply rect_imap2; auto|]. split; [apply rect_imap2; auto|]. intros i j Hi Hj.
  destruct (place_in t n m (i, j) Hi Hj). rewrite (pixel_imap2 n m f x x2) by auto. rewrite (pixel_imap2 n' m' f y y2) by auto. rewrite C, C2; auto.
Qed.
Lemma turned_isum x y l k : R x y -> Forall2 R l k -> R (isum x l) (isum y k).
Proof.
  intros E F. unfold isum. assert (Z : R (izeros x) (izeros y)) by (apply turned_imap; auto). revert Z. generalize (izeros x), (izeros y).
  induction F as [|a b l k H F IH]; intros u v Z; cbn [fold_left]; auto. apply IH. apply turned_imap2; auto.
Qed.
(** Invariant quantities. *)
Lemma forallb_perm {X} (f : X -> bool) l k : Permutation l k -> forallb f l = forallb f k.
Proof. induction 1; cbn [forallb]; try congruence. rewrite !andb_assoc, (andb_comm (f y)). reflexivity. Qed.
Lemma nsum_perm (l k : list Qc) : Permutation l k -> nsum l = nsum k.
Proof.
  intros P. rewrite !nsum_fold. induction P; cbn [fold_right]; try congruence. rewrite !Qcplus_assoc, (Qcplus_comm y). reflexivity.
Qed.
Lemma imean_turned x y : R x y -> imean y = imean x.
Proof.
  intros E. unfold imean. pose proof (turned_concat x y E) as P. rewrite (nsum_perm _ _ P). unfold zlen. rewrite (Permutation_length P). reflexivity.
Qed.
Lemma iallclose_turned r x y x2 y2 : R x y -> R x2 y2 -> iallclose r y y2 = iallclose r x x2.
Proof. intros E E2. unfold iallclose. apply forallb_perm, turned_combine; auto. Qed.
Lemma np_min_perm (l k : list Qc) : Permutation l k -> np_min l = np_min k.
Proof.
  intros P. destruct l as [|a l]; [apply Permutation_nil in P; subst; reflexivity|]. destruct k as [|b k]; [symmetry in P; apply Permutation_nil in P; discriminate P|].
  destruct (np_min_ok (a :: l)) as [u U]; [discriminate|]. destruct (np_min_ok (b :: k)) as [v V]; [discriminate|]. rewrite U, V. f_equal.
  apply np_min_spec in U as [U1 U2]. apply np_min_spec in V as [V1 V2]. apply Qcle_antisym.
  - apply U2. eapply Permutation_in; [symmetry; exact P|]. auto.
  - apply V2. eapply Permutation_in; [exact P|]. auto.
Qed.
Lemma np_max_perm (l k : list Qc) : Permutation l k -> np_max l = np_max k.
Proof.
  intros P. destruct l as [|a l]; [apply Permutation_nil in P; subst; reflexivity|]. destruct k as [|b k]; [symmetry in P; apply Permutation_nil in P; discriminate P|].
  destruct (np_max_ok (a :: l)) as [u U]; [discriminate|]. destruct (np_max_ok (b :: k)) as [v V]; [discriminate|]. rewrite U, V. f_equal.
  apply np_max_spec in U as [U1 U2]. apply np_max_spec in V as [V1 V2]. apply Qcle_antisym.
  - apply V2. eapply Permutation_in; [exact P|]. auto.
  - apply U2. eapply Permutation_in; [symmetry; exact P|]. auto.
Qed.
Lemma forallb_rows {X} (f : X -> bool) (x : list (list X)) : forallb (forallb f) x = forallb f (concat x).
Proof. induction x as [|r x IH]; cbn [forallb concat]; auto. rewrite forallb_app, IH. reflexivity. Qed.
Lemma with_residue_turned x y l k : R x y -> Forall2 R l k -> Forall2 R (with_residue x l) (with_residue y k).
Proof.
  intros E F. unfold with_residue. assert (H : R (isub x (isum x l)) (isub y (isum y k))) by (apply turned_imap2; auto; apply turned_isum; auto).
  unfold allclose0. rewrite !forallb_rows, (forallb_perm _ _ _ (turned_concat _ _ H)). destruct (forallb _ _); auto.
  apply Forall2_app; auto.
Qed.
Lemma check_proto_turned c p q a b u v : R p q -> R a b -> R u v -> check_proto c q b v = check_proto c p a u.
Proof.
  intros E1 E2 E3. unfold check_proto. rewrite (imean_turned u v E3), (forallb_perm _ _ _ (turned_concat _ _ E3)), (iallclose_turned _ p q a b E1 E2).
  rewrite (imean_turned _ _ (turned_imap nabs _ _ E1)), (imean_turned _ _ (turned_imap (fun y => nmul y y) _ _ E1)). reflexivity.
Qed.
End Turn.

(** ** Extrema *)
Lemma place_neighbour t n m i j a b : (i < n)%nat -> (j < m)%nat -> (a < n)%nat -> (b < m)%nat -> neighbour i j a b ->
  neighbour (fst (place t n m (i, j))) (snd (place t n m (i, j))) (fst (place t n m (a, b))) (snd (place t n m (a, b))).
Proof. destruct t; unfold neighbour; cbn; lia. Qed.
Lemma place_interior t n m i j : interior n m i j -> interior (tall t n m) (wide t n m) (fst (place t n m (i, j))) (snd (place t n m (i, j))).
Proof. destruct t; unfold interior; cbn; lia. Qed.
Lemma place_local_max t n m x y i j : turned t n m x y -> local_max n m x i j -> local_max (tall t n m) (wide t n m) y (fst (place t n m (i, j))) (snd (place t n m (i, j))).
Proof.
  intros E [I L]. split; [apply place_interior; auto|]. intros a b N. pose proof (place_interior t n m i j I) as I'.
  assert (Ha : (a < tall t n m)%nat) by (unfold neighbour, interior in *; lia). assert (Hb : (b < wide t n m)%nat) by (unfold neighbour, interior in *; lia).
  destruct (place_forth t n m (a, b) Ha Hb) as ([c d] & Hc & Hd & Ep). assert (Ea : a = fst (place t n m (c, d))) by (rewrite Ep; auto).
  assert (Eb : b = snd (place t n m (c, d))) by (rewrite Ep; auto). cbn [fst snd] in Hc, Hd.
  assert (Hi : (i < n)%nat) by (unfold interior in I; lia). assert (Hj : (j < m)%nat) by (unfold interior in I; lia).
  destruct E as (_ & _ & E). rewrite Ea, Eb, !E by auto. apply L.
  apply (place_neighbour t (tall t n m) (wide t n m)) in N; [|apply place_in; auto|apply place_in; auto| |]; auto.
  rewrite Ea, Eb in N. rewrite <- !surjective_pairing in N. rewrite !place_back in N by auto. exact N.
Qed.
Lemma NoDup_before (l : list (nat * nat)) : StronglySorted before l -> NoDup l.
Proof. induction 1 as [|a l S IH F]; constructor; auto. intros I. rewrite Forall_forall in F. specialize (F _ I). unfold before in F. lia. Qed.
Lemma NoDup_place t n m l : NoDup l -> (forall p, In p l -> (fst p < n /\ snd p < m)%nat) -> NoDup (map (place t n m) l).
Proof.
  induction l as [|p l IH]; intros N I; [constructor|]. inversion_clear N. cbn [map]. constructor; [|apply IH; auto; intros; apply I; right; auto].
  intros J. apply in_map_iff in J as (q & E & J). assert (p = q); [|subst; contradiction].
  destruct (I p (or_introl eq_refl)), (I q (or_intror J)). rewrite <- (place_back t n m p), <- (place_back t n m q), E by auto. reflexivity.
Qed.
Lemma peaks_in n m x p : rect n m x -> (0 < n)%nat -> In p (peaks x) -> (fst p < n /\ snd p < m)%nat.
Proof. intros Hx Hn I. destruct p as [i j]. apply (peaks_spec n m x Hx Hn) in I. destruct I as [I _]. unfold interior in I. cbn. lia. Qed.
Lemma peaks_turned t n m x y : turned t n m x y -> (0 < n)%nat -> (0 < m)%nat -> Permutation (peaks y) (map (place t n m) (peaks x)).
Proof.
  intros E Hn Hm. pose proof (tall_pos t n m Hn Hm) as Hn'. assert (Hx : rect n m x) by apply E. assert (Hy : rect (tall t n m) (wide t n m) y) by apply E.
  destruct (peaks_spec n m x Hx Hn) as [S1 I1]. destruct (peaks_spec _ _ y Hy Hn') as [S2 I2].
  apply NoDup_Permutation; [apply NoDup_before; auto|apply NoDup_place; [apply NoDup_before; auto|intros p; apply (peaks_in n m); auto]|].
  intros [a b]. rewrite I2, in_map_iff. split.
  - intros L. pose proof (turned_sym t n m x y E) as E'. pose proof (place_local_max _ _ _ _ _ _ _ E' L) as L'. rewrite tall_back, wide_back in L'.
    exists (place t (tall t n m) (wide t n m) (a, b)). destruct L as [L _]. unfold interior in L. split.
    + pose proof (place_back t (tall t n m) (wide t n m) (a, b)) as P. rewrite tall_back, wide_back in P. apply P; cbn; lia.
    + rewrite (surjective_pairing (place _ _ _ _)). apply I1. exact L'.
  - intros ([i j] & Ep & I). apply I1 in I. apply (place_local_max t n m x y) in I; auto. rewrite Ep in I. exact I.
Qed.
Lemma tiled_turned t n m x y : turned t n m x y -> (0 < n)%nat -> (0 < m)%nat -> turned t (3 * n) (3 * m) (prepare_image x) (prepare_image y).
Proof.
  intros (A & B & C) Hn Hm. destruct (prepare_image_spec n m x A) as [Px Qx]. destruct (prepare_image_spec _ _ y B) as [Py Qy].
  assert (E1 : tall t (3 * n) (3 * m) = (3 * tall t n m)%nat) by (destruct t; reflexivity).
  assert (E2 : wide t (3 * n) (3 * m) = (3 * wide t n m)%nat) by (destruct t; reflexivity).
  split; auto. rewrite E1, E2. split; auto. intros i j Hi Hj. destruct (place_in t (3 * n) (3 * m) (i, j) Hi Hj) as [H1 H2]. rewrite E1 in H1. rewrite E2 in H2.
  rewrite Qx, Qy by auto. assert (M1 : (mirrored n i < n)%nat) by (unfold mirrored; destruct (Nat.ltb_spec i n), (Nat.ltb_spec i (2 * n)); lia).
  assert (M2 : (mirrored m j < m)%nat) by (unfold mirrored; destruct (Nat.ltb_spec j m), (Nat.ltb_spec j (2 * m)); lia).
  rewrite <- C by auto. f_equal.
  - destruct t; cbn [place fst snd tall]; unfold mirrored; destruct (Nat.ltb_spec i n), (Nat.ltb_spec i (2 * n)); try reflexivity;
      repeat match goal with |- context [(?a <? ?b)%nat] => destruct (Nat.ltb_spec a b) end; lia.
  - destruct t; cbn [place fst snd wide]; unfold mirrored; destruct (Nat.ltb_spec j m), (Nat.ltb_spec j (2 * m)); try reflexivity;
      repeat match goal with |- context [(?a <? ?b)%nat] => destruct (Nat.ltb_spec a b) end; lia.
Qed.

Section Sift.
Variable t : turning.
Variables n m : nat.
Hypothesis Hn : (0 < n)%nat.
Hypothesis Hm : (0 < m)%nat.
Notation R := (turned t n m).
Variable sbs : surface Qc.
Hypothesis Hs : fair_surface t sbs.

Lemma combine_values (x : img) (l : list (nat * nat)) : combine l (map (fun p => pix x (fst p) (snd p)) l) = map (fun p => (p, pix x (fst p) (snd p))) l.
Proof. induction l; cbn; congruence. Qed.
Lemma fit_turned x y ps ps' : R x y -> (forall p, In p ps -> (fst p < 3 * n /\ snd p < 3 * m)%nat) -> Permutation ps' (map (place t (3 * n) (3 * m)) ps) ->
  alike R (sbs ps (map (fun p => pix (prepare_image x) (fst p) (snd p)) ps) (seq n n) (seq m m))
    (sbs ps' (map (fun p => pix (prepare_image y) (fst p) (snd p)) ps') (seq (tall t n m) (tall t n m)) (seq (wide t n m) (wide t n m))).
Proof.
  intros E I P. apply Hs; auto; rewrite ?map_length; auto. rewrite combine_values, (Permutation_map _ P), map_map. apply Permutation_refl'.
  destruct (tiled_turned t n m x y E Hn Hm) as (_ & _ & C). clear - I C. induction ps as [|[i j] ps IH]; cbn [map combine]; auto.
  destruct (I (i, j) (or_introl eq_refl)). rewrite !pix_pixel, C by auto. f_equal. apply IH. intros; apply I; right; auto.
Qed.
Lemma envelopes2_turned x y : R x y -> alike (fun p q => R (fst p) (fst q) /\ R (snd p) (snd q)) (envelopes2 sbs x) (envelopes2 sbs y).
Proof.
  intros E. unfold envelopes2. pose proof (tiled_turned t n m x y E Hn Hm) as ET.
  destruct (find_extrema2 (prepare_image x)) as [mins maxs] eqn:F1. destruct (find_extrema2 (prepare_image y)) as [mins' maxs'] eqn:F2.
  unfold find_extrema2 in F1, F2. injection F1 as <- <-. injection F2 as <- <-.
  rewrite (nrows_rect n m x), (ncols_rect n m x) by (auto; apply E). rewrite (nrows_rect _ _ y (proj1 (proj2 E))), (ncols_rect _ _ y (proj1 (proj2 E))) by (apply tall_pos; auto).
  assert (Hn3 : (0 < 3 * n)%nat) by lia. assert (Hm3 : (0 < 3 * m)%nat) by lia.
  pose proof (turned_imap t _ _ Qcopp _ _ ET) as EN.
  assert (A := fit_turned x y _ _ E (fun p => peaks_in (3 * n) (3 * m) _ p (proj1 EN) Hn3) (peaks_turned t _ _ _ _ EN Hn3 Hm3)).
  assert (B := fit_turned x y _ _ E (fun p => peaks_in (3 * n) (3 * m) _ p (proj1 ET) Hn3) (peaks_turned t _ _ _ _ ET Hn3 Hm3)).
  destruct (sbs (peaks (imap Qcopp (prepare_image x))) _ _ _) as [lo|e], (sbs (peaks (imap Qcopp (prepare_image y))) _ _ _) as [lo'|e']; cbn [bind alike] in *; try contradiction; auto.
  destruct (sbs (peaks (prepare_image x)) _ _ _) as [up|e], (sbs (peaks (prepare_image y)) _ _ _) as [up'|e']; cbn [bind alike fst snd] in *; try contradiction; auto.
Qed.
Lemma sift2_turned c left : forall k h x y u v, R x y -> R u v ->
  alike (fun p q => R (fst p) (fst q) /\ snd p = snd q) (sift2 sbs c left k h x u) (sift2 sbs c left k h y v).
Proof.
  induction left as [|left IH]; intros k h x y u v E M; cbn [sift2]; [cbn; auto|].
  destruct (find_extrema2 x) as [mins maxs] eqn:F1. destruct (find_extrema2 y) as [mins' maxs'] eqn:F2.
  unfold find_extrema2 in F1, F2. injection F1 as <- <-. injection F2 as <- <-. unfold zlen.
  rewrite (Permutation_length (peaks_turned t n m _ _ E Hn Hm)), (Permutation_length (peaks_turned t n m _ _ (turned_imap t n m Qcopp _ _ E) Hn Hm)), !map_length.
  destruct (_ && _); [|cbn; auto]. assert (E1 := turned_imap2 t n m nsub _ _ _ _ E M). fold (isub x u) (isub y v) in E1.
  pose proof (envelopes2_turned _ _ E1) as EE. destruct (envelopes2 sbs (isub x u)) as [[lo up]|e], (envelopes2 sbs (isub y v)) as [[lo' up']|e']; cbn [bind alike] in *; try contradiction; auto.
  destruct EE as [EL EU]. cbn [fst snd] in EL, EU.
  assert (E2 : R (imap (nmul nhalf) (iadd lo up)) (imap (nmul nhalf) (iadd lo' up'))) by (apply turned_imap, turned_imap2; auto).
  assert (E3 := turned_imap2 t n m nsub _ _ _ _ E1 E2). change (imap2 nsub (isub x u)) with (isub (isub x u)) in E3. change (imap2 nsub (isub y v)) with (isub (isub y v)) in E3.
  rewrite (check_proto_turned t n m c _ _ _ _ _ _ E3 E1 E2).
  repeat match goal with |- context [if ?b then _ else _] => destruct b end; cbn [alike fst snd]; auto; apply IH; auto.
Qed.
End Sift.

Lemma modes2_turned t n m s s' x y xs ys k : turned t n m x y -> turned t n m xs ys ->
  (forall a b, turned t n m a b -> alike (fun p q => turned t n m (fst p) (fst q) /\ snd p = snd q) (s a) (s' b)) ->
  forall fuel l l', Forall2 (turned t n m) l l' -> alike (Forall2 (turned t n m)) (modes2 s fuel x xs k l) (modes2 s' fuel y ys k l').
Proof.
  intros E Es Hs. induction fuel as [|fuel IH]; intros l l' F; cbn [modes2]; [reflexivity|].
  specialize (Hs (isub xs (isum xs l)) (isub ys (isum ys l')) ltac:(apply turned_imap2; auto; apply turned_isum; auto)).
  destruct (s _) as [[a b]|e], (s' _) as [[a' b']|e']; cbn [bind alike fst snd] in *; try contradiction; auto. destruct Hs as [Ha <-].
  assert (F' : Forall2 (turned t n m) (l ++ [a]) (l' ++ [a'])) by (apply Forall2_app; auto).
  rewrite (iallclose_turned t n m _ x y (isum x (l ++ [a])) (isum y (l' ++ [a']))) by (auto; apply turned_isum; auto).
  assert (L : zlen (l' ++ [a']) = zlen (l ++ [a])) by (unfold zlen; f_equal; symmetry; clear - F'; induction F'; cbn; congruence). rewrite L.
  destruct (_ || _); [exact F'|]. destruct b; [|exact F']. apply IH. auto.
Qed.
Lemma on_last_turned t n m f l k : (forall a b, turned t n m a b -> turned t n m (f a) (f b)) -> Forall2 (turned t n m) l k -> Forall2 (turned t n m) (on_last f l) (on_last f k).
Proof.
  intros Hf F. unfold on_last. assert (G : Forall2 (turned t n m) (rev l) (rev k)).
  { induction F; cbn [rev]; [constructor|]. apply Forall2_app; auto. }
  destruct G as [|a b l1 k1 H G]; [constructor|]. assert (G' : Forall2 (turned t n m) (f a :: l1) (f b :: k1)) by (constructor; auto).
  clear - G'. induction G'; cbn [rev]; [constructor|]. apply Forall2_app; auto.
Qed.
Theorem emd2d_turned t sbs c fuel n m x y k : fair_surface t sbs -> turned t n m x y ->
  alike (Forall2 (turned t n m)) (emd2d sbs c fuel x k) (emd2d sbs c fuel y k).
Proof.
  intros Hs E. pose proof (turned_concat t n m x y E) as P. unfold emd2d. rewrite (np_min_perm _ _ P), (np_max_perm _ _ P).
  destruct (np_min (concat x)) as [lo|e] eqn:El; cbn [bind]; [|reflexivity]. destruct (np_max (concat x)) as [hi|e] eqn:Eh; cbn [bind]; [|reflexivity].
  destruct (neqb _ _); [reflexivity|].
  assert (Hp : (0 < n /\ 0 < m)%nat).
  { apply np_min_spec in El as [I _]. apply (concat_In n m) in I; [|apply E]. destruct I as (i & j & H & _). lia. }
  assert (Es : turned t n m (imap (fun y => ndiv (nsub y lo) (nsub hi lo)) x) (imap (fun y => ndiv (nsub y lo) (nsub hi lo)) y)) by (apply turned_imap; auto).
  assert (M := modes2_turned t n m (fun r => sift2 sbs c (Z.to_nat (MAX_ITERATION2 c)) 0 0 r (izeros x)) (fun r => sift2 sbs c (Z.to_nat (MAX_ITERATION2 c)) 0 0 r (izeros y))
    x y _ _ k E Es ltac:(intros a b Hab; apply sift2_turned; auto; try apply Hp; apply turned_imap; auto) fuel [] [] ltac:(constructor)).
  destruct (modes2 _ fuel x _ k []) as [I|e], (modes2 _ fuel y _ k []) as [I'|e']; cbn [bind alike] in *; try contradiction; auto.
  apply on_last_turned; [intros; apply turned_imap; auto|]. pose proof (with_residue_turned t n m _ _ _ _ Es M) as W.
  induction W; cbn [map]; constructor; auto. apply turned_imap. auto.
Qed.
