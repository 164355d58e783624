(** * ImageNegative: EMD2D and BEMD of a photographic negative. *)
From Verif Require Import Py PyFacts QcFacts Spec SymSpec Image EmdSym ImageSpec EmdExact ImageProofs ImageSift BemdProofs ImageUnit TurnBemd NegativeSpec.
From Coq Require Import ZifyBool ZifyNat QArith Qcanon Lia Sorting.Sorted.
Open Scope Z_scope.

Lemma abs_opp x : Qc_abs (- x) = Qc_abs x.
Proof. replace (- x)%Qc with ((- (1)) * x)%Qc by ring. rewrite abs_mul. change (Qc_abs (- (1))) with 1%Qc. apply Qcmult_1_l. Qed.
Lemma map2_maps (f g h k : Qc -> Qc) (op op' : Qc -> Qc -> Qc) : (forall x y, op (f x) (g y) = h (op' x y)) ->
  forall x y, map2 op (map f x) (map g y) = map h (map2 op' x y).
Proof. intros H. induction x as [|a x IH]; destruct y as [|b y]; auto. cbn. rewrite H, IH. reflexivity. Qed.
Lemma imap2_maps (f g h : Qc -> Qc) (op op' : Qc -> Qc -> Qc) : (forall x y, op (f x) (g y) = h (op' x y)) ->
  forall x y, imap2 op (imap f x) (imap g y) = imap h (imap2 op' x y).
Proof.
  intros H. unfold imap2, imap. induction x as [|a x IH]; destruct y as [|b y]; auto. cbn [map map2]. rewrite IH. f_equal. apply map2_maps; auto.
Qed.
Lemma negative_imap x : negative x = imap Qcopp x. Proof. reflexivity. Qed.
Lemma negative_twice x : negative (negative x) = x.
Proof.
  unfold negative. rewrite map_map. rewrite <- (map_id x) at 2. apply map_ext. intros r. rewrite map_map.
  rewrite <- (map_id r) at 2. apply map_ext. intros y. ring.
Qed.
Lemma isub_neg x y : isub (negative x) (negative y) = negative (isub x y).
Proof. apply imap2_maps. intros; num_qc; ring. Qed.
Lemma iadd_neg x y : iadd (negative x) (negative y) = negative (iadd x y).
Proof. apply imap2_maps. intros; num_qc; ring. Qed.
Lemma izeros_imap f (x : img) : izeros (imap f x) = izeros x.
Proof. unfold izeros. rewrite imap_imap. reflexivity. Qed.
Lemma izeros_neg (x : img) : negative (izeros x) = izeros x.
Proof. unfold izeros. rewrite negative_imap, imap_imap. apply imap_ext. intros; num_qc; ring. Qed.
Lemma isum_neg (x x' : img) l : izeros x' = izeros x -> isum x' (map negative l) = negative (isum x l).
Proof.
  intros E. unfold isum. rewrite E, <- izeros_neg at 1. generalize (izeros x). induction l as [|y l IH]; intros z; auto.
  cbn [map fold_left]. rewrite iadd_neg. apply IH.
Qed.
Lemma concat_imap f (x : img) : concat (imap f x) = map f (concat x).
Proof. symmetry. apply concat_map. Qed.
Lemma nsum_opp (l : list Qc) : nsum (map Qcopp l) = (- nsum l)%Qc.
Proof.
  unfold nsum. num_qc. replace 0%Qc with (- 0)%Qc at 1 by ring. generalize 0%Qc. induction l as [|x l IH]; intros z; auto.
  cbn [map fold_left]. rewrite <- IH. f_equal. ring.
Qed.
Lemma imean_neg (x : img) : imean (negative x) = (- imean x)%Qc.
Proof.
  unfold imean. rewrite negative_imap, concat_imap, nsum_opp, zlen_map. num_qc. unfold Qcdiv. ring.
Qed.
Lemma abs_neg (x : img) : imap nabs (negative x) = imap nabs x.
Proof. rewrite negative_imap, imap_imap. apply imap_ext. intros y. apply abs_opp. Qed.
Lemma iallclose_neg r (x y : img) : iallclose r (negative x) (negative y) = iallclose r x y.
Proof.
  unfold iallclose. rewrite (negative_imap x), (negative_imap y), !concat_imap. generalize (concat x) (concat y). intros l. induction l as [|a l IH]; intros l0; destruct l0 as [|b k]; auto.
  cbn [map combine forallb fst snd]. rewrite IH. f_equal. num_qc. replace (- a - - b)%Qc with (- (a - b))%Qc by ring. rewrite !abs_opp. reflexivity.
Qed.
Lemma forallb_map_ext {X Y} (f : Y -> bool) (g : X -> bool) (h : X -> Y) l : (forall x, f (h x) = g x) -> forallb f (map h l) = forallb g l.
Proof. intros H. induction l as [|x l IH]; auto. cbn. rewrite H, IH. reflexivity. Qed.
Lemma residue_neg (x : img) : forallb allclose0 (negative x) = forallb allclose0 x.
Proof.
  apply forallb_map_ext. intros r. apply forallb_map_ext. intros y. num_qc. rewrite abs_opp. reflexivity.
Qed.
Lemma half_neg (a b : img) : half_of (negative a) (negative b) = negative (half_of b a).
Proof.
  unfold half_of. rewrite iadd_neg. change negative with (imap Qcopp). rewrite !imap_imap.
  assert (C : iadd a b = iadd b a).
  { unfold iadd, imap2. revert b. induction a as [|r a IH]; destruct b as [|s b]; auto. cbn [map2]. rewrite IH. f_equal.
    revert s. induction r as [|u r IHr]; destruct s as [|v s]; auto. cbn [map2]. rewrite IHr. f_equal. num_qc. ring. }
  rewrite C. apply imap_ext. intros y. num_qc. ring.
Qed.

(** ** BEMD *)
Section Bemd.
Context (rec : reconstruction Qc) (f : rbf Qc) (c : cfg2 Qc) (Hf : odd_rbf f).

Lemma minima_neg x : minima_positions rec (negative x) = maxima_positions rec x.
Proof. unfold minima_positions. change (imap nopp (negative x)) with (negative (negative x)). rewrite negative_twice. reflexivity. Qed.
Lemma maxima_neg x : maxima_positions rec (negative x) = minima_positions rec x.
Proof. reflexivity. Qed.
Lemma pick_neg x p : pick (negative x) p = answer Qcopp (pick x p).
Proof.
  unfold pick, negative. rewrite nth_error_map. destruct (nth_error x (fst p)) as [r|]; auto. cbn [option_map].
  rewrite nth_error_map. destruct (nth_error r (snd p)); reflexivity.
Qed.
Lemma picks_neg x ps : mapM (pick (negative x)) ps = answer (map Qcopp) (mapM (pick x) ps).
Proof.
  induction ps as [|p ps IH]; auto. cbn [mapM]. rewrite pick_neg, IH. destruct (pick x p); auto. cbn [answer bind].
  destruct (mapM (pick x) ps); reflexivity.
Qed.
Lemma shape_imap (g : Qc -> Qc) (x : img) : nrows (imap g x) = nrows x /\ ncols (imap g x) = ncols x.
Proof. unfold nrows, ncols, imap. rewrite map_length. split; auto. destruct x as [|r x]; auto. apply map_length. Qed.
Lemma check_b_neg p q e : check_proto_b c (negative p) (negative q) (negative e) = check_proto_b c p q e.
Proof.
  unfold check_proto_b. rewrite abs_neg, iallclose_neg, imean_neg. rewrite negative_imap, concat_imap.
  rewrite (forallb_map_ext _ (fun y => nltb (nabs (nsub y (imean e))) (mean_thr c)) Qcopp); auto.
  intros y. num_qc. replace (- y - - imean e)%Qc with (- (y - imean e))%Qc by ring. rewrite abs_opp. reflexivity.
Qed.

(** When the two envelopes both fail, the one whose failure is reported may differ; both fits are asked for
    anyway, so the statement is about runs that return. *)
Lemma sift_b_neg left : forall n h x y b, sift_b rec f c left n h x = Ok (y, b) ->
  sift_b rec f c left n h (negative x) = Ok (negative y, b).
Proof.
  induction left as [|left IH]; intros n h x y b; cbn [sift_b].
  - intros E. apply ok_inv, pair_inv in E as [<- <-]. reflexivity.
  - rewrite minima_neg, maxima_neg. rewrite (andb_comm (1 <? zlen (maxima_positions rec x))).
    destruct (_ && _); [|intros E; apply ok_inv, pair_inv in E as [<- <-]; reflexivity].
    intros E. apply bind_ok in E as ([lo up] & E1 & E).
    assert (E1' : envelopes_b f (negative x) (maxima_positions rec x) (minima_positions rec x) = Ok (negative up, negative lo)).
    { revert E1. unfold envelopes_b. rewrite !picks_neg. destruct (shape_imap Qcopp x) as [S1 S2]. rewrite negative_imap, S1, S2.
      intros E1. apply bind_ok in E1 as (v1 & V1 & E1). apply bind_ok in E1 as (v2 & V2 & E1). apply bind_ok in E1 as (e1 & F1 & E1).
      apply bind_ok in E1 as (e2 & F2 & E1). apply ok_inv, pair_inv in E1 as [<- <-]. rewrite V1, V2. cbn [answer bind].
      rewrite !Hf, F1, F2. reflexivity. }
    rewrite E1'. cbn [bind]. fold (half_of (negative up) (negative lo)). rewrite half_neg. fold (half_of lo up) in E. set (e := half_of lo up) in *.
    assert (ES : same_shape (negative x) (negative e) = same_shape x e).
    { unfold same_shape. change negative with (imap Qcopp). destruct (shape_imap Qcopp x) as [-> ->]. destruct (shape_imap Qcopp e) as [-> ->]. reflexivity. }
    rewrite ES. destruct (negb (same_shape x e)); [discriminate|]. rewrite isub_neg, check_b_neg.
    destruct (negb (FIXE2 c =? 0)).
    { destruct (FIXE2 c + 1 <=? n + 1); [apply ok_inv, pair_inv in E as [<- <-]; reflexivity|]. apply IH, E. }
    destruct (negb (FIXE_H2 c =? 0)).
    { destruct (n + 1 =? 1); [apply IH, E|]. destruct (FIXE_H2 c <=? _); [apply ok_inv, pair_inv in E as [<- <-]; reflexivity|]. apply IH, E. }
    destruct (check_proto_b c (isub x e) x e); [apply ok_inv, pair_inv in E as [<- <-]; reflexivity|]. apply IH, E.
Qed.
Lemma modes2_neg (sift sift' : img -> res (img * bool)) image xs m :
  (forall r y b, sift r = Ok (y, b) -> sift' (negative r) = Ok (negative y, b)) ->
  forall fuel I R, modes2 sift fuel image xs m I = Ok R ->
  modes2 sift' fuel (negative image) (negative xs) m (map negative I) = Ok (map negative R).
Proof.
  intros Hs. induction fuel as [|fuel IH]; intros I R; [discriminate|]. cbn [modes2]. intros E. apply bind_ok in E as ([y b] & E1 & E).
  assert (EZ : forall z : img, izeros (negative z) = izeros z) by (intros; apply izeros_imap).
  rewrite (isum_neg xs (negative xs)) by auto. rewrite isub_neg, (Hs _ _ _ E1). cbn [bind]. change [negative y] with (map negative [y]).
  rewrite <- map_app. rewrite (isum_neg image (negative image)) by auto. rewrite iallclose_neg. rewrite zlen_map.
  destruct (_ || _); [apply ok_inv in E; subst; reflexivity|]. destruct b; [apply IH, E|apply ok_inv in E; subst; reflexivity].
Qed.
Theorem bemd_neg fuel x m rows : bemd rec f c fuel x m = Ok rows -> bemd rec f c fuel (negative x) m = Ok (map negative rows).
Proof.
  unfold bemd. intros E. apply bind_ok in E as (I & E1 & E). apply ok_inv in E. subst rows.
  pose proof (modes2_neg _ (fun r => sift_b rec f c (Z.to_nat (MAX_ITERATION2 c)) 0 0 r) x x m (sift_b_neg _ 0 0) fuel [] I E1) as E2.
  cbn [map] in E2. rewrite E2. cbn [bind]. f_equal.
  unfold with_residue. rewrite (isum_neg x (negative x)) by apply izeros_imap. rewrite isub_neg, residue_neg.
  destruct (forallb allclose0 _); auto. rewrite map_app. reflexivity.
Qed.
End Bemd.

(** ** EMD2D *)
Definition inv (a : Qc) : img -> img := imap (fun v => (a - v)%Qc).
Lemma inv_inverted a x : inverted a x = inv a x. Proof. reflexivity. Qed.
Lemma inv_0 x : inv 0 x = negative x. Proof. apply imap_ext. intros y. ring. Qed.
Lemma isub_inv a b x e : isub (inv a x) (inv b e) = inv (a - b)%Qc (isub x e).
Proof. apply imap2_maps. intros; num_qc; ring. Qed.
Lemma half_inv s a b : half_of (inv s a) (inv s b) = inv s (half_of b a).
Proof.
  assert (C : half_of b a = half_of a b).
  { rewrite <- (negative_twice (half_of b a)), <- half_neg. unfold half_of. rewrite iadd_neg. change negative with (imap Qcopp). rewrite !imap_imap.
    apply imap_ext. intros y. num_qc. ring. }
  rewrite C. unfold half_of. assert (E : iadd (inv s a) (inv s b) = inv (s + s)%Qc (iadd a b)) by (apply imap2_maps; intros; num_qc; ring).
  rewrite E. unfold inv. rewrite !imap_imap. apply imap_ext. intros y. num_qc.
  assert (H : ((s + s) * Q2Qc (1 # 2) = s)%Qc) by (replace ((s + s) * Q2Qc (1 # 2))%Qc with (s * ((1 + 1) * Q2Qc (1 # 2)))%Qc by ring;
    replace ((1 + 1) * Q2Qc (1 # 2))%Qc with 1%Qc by (apply Qc_is_canon; reflexivity); ring).
  change nhalf with (Q2Qc (1 # 2)). transitivity ((s + s) * Q2Qc (1 # 2) - Q2Qc (1 # 2) * y)%Qc; [ring|rewrite H; reflexivity].
Qed.
Section Emd2d.
Context (sbs : surface Qc) (c : cfg2 Qc) (n m : nat) (Hs : surface_ok sbs) (Hi : inverting sbs) (Hn : (0 < n)%nat) (Hc : FIXE2 c <> 0).

Lemma pixel_near_border (n' m' i j a b : nat) : interior n' m' i j -> neighbour i j a b -> (a < n' /\ b < m')%nat.
Proof. unfold interior, neighbour. lia. Qed.
Lemma peaks_shift n' m' s x : rect n' m' x -> (0 < n')%nat -> peaks (imap (fun v => (s + v)%Qc) x) = peaks x.
Proof.
  intros Hx Hn'. unfold peaks. destruct (shape_imap (fun v => (s + v)%Qc) x) as [-> ->]. apply filter_ext. intros [i j].
  apply bool_iff. rewrite !(is_peak_spec n' m') by auto using rect_imap. unfold local_max.
  assert (A : forall P Q R : Prop, (P -> (Q <-> R)) -> (P /\ Q <-> P /\ R)) by tauto. apply A. intros HI.
  assert (HH : (i < n' /\ j < m')%nat) by (unfold interior in HI; lia).
  split; intros L a b Hab; specialize (L a b Hab); destruct (pixel_near_border _ _ _ _ _ _ HI Hab);
    rewrite !(pixel_imap n' m' _ x) in * by (auto; lia); qclra.
Qed.
Lemma find_inv n' m' s x : rect n' m' x -> (0 < n')%nat -> find_extrema2 (inv s x) = (snd (find_extrema2 x), fst (find_extrema2 x)).
Proof.
  intros Hx Hn'. unfold find_extrema2. cbn [fst snd]. f_equal.
  - rewrite <- (peaks_shift n' m' (- s)%Qc x) by auto. f_equal. unfold inv. rewrite imap_imap. apply imap_ext. intros y. num_qc. ring.
  - rewrite <- (peaks_shift n' m' s (imap nopp x)) by auto using rect_imap. f_equal. unfold inv. rewrite imap_imap. apply imap_ext. intros y. num_qc. ring.
Qed.
Lemma mirrored_in k i : (i < 3 * k)%nat -> (mirrored k i < k)%nat.
Proof. unfold mirrored. destruct (Nat.ltb_spec i k), (Nat.ltb_spec i (2 * k)); lia. Qed.
Lemma prepare_inv s x : rect n m x -> prepare_image (inv s x) = inv s (prepare_image x).
Proof.
  intros Hx. destruct (prepare_image_spec n m x Hx) as [R1 P1].
  destruct (prepare_image_spec n m (inv s x) (rect_imap n m _ x Hx)) as [R2 P2].
  apply (image_ext (3 * n) (3 * m)); auto; [apply rect_imap; auto|]. intros i j Hi' Hj. rewrite P2 by auto. unfold inv.
  rewrite (pixel_imap n m _ x), (pixel_imap (3 * n) (3 * m) _ (prepare_image x)), P1 by auto using mirrored_in. reflexivity.
Qed.
Lemma envelopes_inv s x lo up : rect n m x -> envelopes2 sbs x = Ok (lo, up) -> envelopes2 sbs (inv s x) = Ok (inv s up, inv s lo).
Proof.
  intros Hx. unfold envelopes2. cbv zeta. rewrite prepare_inv by auto. destruct (prepare_image_spec n m x Hx) as [R1 _].
  set (big := prepare_image x) in *. rewrite (find_inv (3 * n) (3 * m)) by (auto; lia).
  destruct (shape_imap (fun v => (s - v)%Qc) x) as [S1 S2]. fold (inv s x) in S1, S2. rewrite S1, S2.
  assert (V : forall ps, (forall p, In p ps -> (fst p < 3 * n /\ snd p < 3 * m)%nat) ->
    map (fun p => pix (inv s big) (fst p) (snd p)) ps = map (fun v => (s - v)%Qc) (map (fun p => pix big (fst p) (snd p)) ps)).
  { intros ps Hp. rewrite map_map. apply map_ext_in. intros p Ip. destruct (Hp p Ip). rewrite !pix_pixel. unfold inv. rewrite (pixel_imap (3 * n) (3 * m)); auto. }
  assert (P : forall z, rect (3 * n) (3 * m) z -> forall p, In p (peaks z) -> (fst p < 3 * n /\ snd p < 3 * m)%nat).
  { intros z Hz p Ip. unfold peaks in Ip. apply filter_In in Ip as [Ip _]. rewrite (nrows_rect (3 * n) (3 * m)), (ncols_rect (3 * n) (3 * m)) in Ip by (auto; lia).
    apply grid_In. auto. }
  unfold find_extrema2. cbn [fst snd]. intros E. apply bind_ok in E as (e1 & E1 & E). apply bind_ok in E as (e2 & E2 & E). apply ok_inv, pair_inv in E as [<- <-].
  rewrite !V by (apply P; auto using rect_imap). rewrite !Hi by (rewrite map_length; reflexivity). rewrite E1, E2. reflexivity.
Qed.
(** One more sift than none. *)
Lemma sift2_inv left : forall k nh nh' x e y b a d, rect n m x -> rect n m e ->
  sift2 sbs c left k nh x e = Ok (y, b) ->
  exists y', sift2 sbs c left k nh' (inv a x) (inv d e) = Ok (y', b) /\ (y' = negative y \/ y = x /\ y' = inv a x /\ (left = 0%nat \/ b = false)).
Proof.
  induction left as [|left IH]; intros k nh nh' x e y b a d Hx He; cbn [sift2].
  { intros E. apply ok_inv, pair_inv in E as [<- <-]. eexists. split; [reflexivity|]. auto. }
  rewrite (find_inv n m) by auto. destruct (find_extrema2 x) as [mins maxs]. cbn [fst snd]. rewrite (andb_comm (4 <? zlen maxs)).
  destruct (_ && _); [|intros E; apply ok_inv, pair_inv in E as [<- <-]; eexists; split; [reflexivity|]; auto].
  intros E. apply bind_ok in E as ([lo up] & EV & E). rewrite isub_inv. pose proof (rect_imap2 n m nsub x e Hx He) as Hxe. fold (isub x e) in Hxe.
  rewrite (envelopes_inv _ _ _ _ Hxe EV). cbn [bind]. destruct (envelopes2_rect sbs n m _ _ _ Hs Hxe Hn EV) as [Rl Ru].
  fold (half_of lo up) in E. fold (half_of (inv (a - d)%Qc up) (inv (a - d)%Qc lo)). rewrite half_inv, isub_inv.
  replace (a - d - (a - d))%Qc with 0%Qc by ring. replace (negb (FIXE2 c =? 0)) with true in * by lia.
  set (e' := half_of lo up) in *. assert (He' : rect n m e') by (apply rect_imap, rect_imap2; auto).
  set (y0 := isub (isub x e) e') in *. assert (Hy0 : rect n m y0) by (apply rect_imap2; auto).
  destruct (FIXE2 c + 1 <=? k + 1).
  - apply ok_inv, pair_inv in E as [<- <-]. eexists. split; [reflexivity|]. left. apply inv_0.
  - destruct (IH _ _ nh' _ _ _ _ 0%Qc (a - d)%Qc Hy0 He' E) as (y' & R & C). exists y'. split; auto. left.
    destruct C as [C|(-> & -> & _)]; auto. apply inv_0.
Qed.

(** ** The outer loop *)
Lemma remainder_inv a (xs : img) l : isub (inv a xs) (isum (inv a xs) (map negative l)) = inv a (isub xs (isum xs l)).
Proof.
  rewrite (isum_neg xs) by apply izeros_imap. rewrite <- inv_0, isub_inv. f_equal. ring.
Qed.
Lemma all_of_it_gone (xs : img) l : rect n m xs -> Forall (rect n m) l ->
  forallb allclose0 (isub xs (isum xs (l ++ [isub xs (isum xs l)]))) = true.
Proof.
  intros Hx Hl. destruct (isub_rest n m xs l Hx Hl) as [R1 P1].
  assert (Hl' : Forall (rect n m) (l ++ [isub xs (isum xs l)])) by (apply Forall_app; auto).
  destruct (isub_rest n m xs _ Hx Hl') as [R2 P2].
  assert (E : isub xs (isum xs (l ++ [isub xs (isum xs l)])) = izeros xs).
  { apply (image_ext n m); auto using rect_zeros. intros i j Hi' Hj. rewrite P2 by auto. rewrite stack_sum_app. unfold stack_sum at 2. cbn [map fold_right].
    rewrite P1 by auto. unfold izeros. rewrite (pixel_imap n m) by auto. num_qc. ring. }
  rewrite E. unfold izeros, imap. apply forallb_forall. intros r Ir. apply in_map_iff in Ir as (q & <- & _). apply forallb_forall.
  intros v Iv. apply in_map_iff in Iv as (u & <- & _). reflexivity.
Qed.
Lemma modes2_ext (sift : img -> res (img * bool)) xs k f : forall I img' R, modes2 sift f img' xs k I = Ok R -> exists t, R = I ++ t.
Proof.
  induction f as [|f IH]; intros I img' R; [discriminate|]. cbn [modes2].
  destruct (sift (isub xs (isum xs I))) as [[y b]|]; [|discriminate]. cbn [bind].
  destruct (_ || _); [intros E; apply ok_inv in E; subst; eauto|]. destruct b.
  - intros E. apply IH in E. destruct E as (t & ->). exists ([y] ++ t). rewrite app_assoc. reflexivity.
  - intros E. apply ok_inv in E. subst. eauto.
Qed.
Lemma modes2_inv (xs z : img) a mx : rect n m xs -> rect n m z -> inv 0 z = z -> 0 < MAX_ITERATION2 c ->
  let sift r := sift2 sbs c (Z.to_nat (MAX_ITERATION2 c)) 0 0 r z in
  forall fuel fuel' im im' I R R', Forall (rect n m) I -> modes2 sift fuel im xs mx I = Ok R -> modes2 sift fuel' im' (inv a xs) mx (map negative I) = Ok R' ->
  forall i, (S i < length (with_residue xs R))%nat -> (S i < length (with_residue (inv a xs) R'))%nat -> nth i R' [] = negative (nth i R []).
Proof.
  intros Hx Hz Ez Hm sift. induction fuel as [|fuel IH]; intros fuel' im im' I R R' HI E E' i Li Li'; [discriminate|].
  destruct fuel' as [|fuel']; [discriminate|].
  assert (KN : forall t t', R = I ++ t -> R' = map negative I ++ t' -> (i < length I)%nat -> nth i R' [] = negative (nth i R [])).
  { intros t t' -> -> H. rewrite !app_nth1 by (rewrite ?map_length; lia). change (@nil (list Qc)) with (negative []). apply map_nth. }
  destruct (modes2_ext _ _ _ _ _ _ _ E) as (t & Et). destruct (modes2_ext _ _ _ _ _ _ _ E') as (t' & Et').
  destruct (Nat.ltb_spec i (length I)) as [H|H]; [eapply KN; eauto|].
  cbn [modes2] in E, E'. apply bind_ok in E as ([y b] & E1 & E). destruct (isub_rest n m xs I Hx HI) as [Rr _].
  rewrite remainder_inv in E'. unfold sift in E1, E' at 1.
  destruct (sift2_inv _ 0 0 0 _ _ _ _ a 0%Qc Rr Hz E1) as (y' & E1' & C). rewrite Ez in E1'. rewrite E1' in E'. cbn [bind] in E'.
  destruct (sift2_any sbs c n m Hs Hn _ _ _ _ _ _ _ Rr Hz E1) as [Ry _].
  destruct C as [->|(-> & -> & [C| ->])]; [|lia|].
  - change [negative y] with (map negative [y]) in E'. rewrite <- map_app in E'.
    assert (HI' : Forall (rect n m) (I ++ [y])) by (apply Forall_app; auto).
    destruct (Nat.eq_dec i (length I)) as [EQ|NE].
    + assert (X : exists u, R = (I ++ [y]) ++ u) by (destruct (_ || _) in E; [apply ok_inv in E; exists []; rewrite app_nil_r; auto|]; destruct b;
        [eapply modes2_ext; eauto|apply ok_inv in E; exists []; rewrite app_nil_r; auto]).
      assert (X' : exists u, R' = map negative (I ++ [y]) ++ u) by (destruct (_ || _) in E'; [apply ok_inv in E'; exists []; rewrite app_nil_r; auto|]; destruct b;
        [eapply modes2_ext; eauto|apply ok_inv in E'; exists []; rewrite app_nil_r; auto]).
      destruct X as (u & ->), X' as (u' & ->). rewrite !app_nth1 by (rewrite ?map_length, app_length; cbn; lia).
      change (@nil (list Qc)) with (negative []). apply map_nth.
    + assert (G : b = true /\ modes2 sift fuel im xs mx (I ++ [y]) = Ok R /\ modes2 sift fuel' im' (inv a xs) mx (map negative (I ++ [y])) = Ok R').
      { pose proof (with_residue_le _ _ _ Li) as W. pose proof (with_residue_le _ _ _ Li') as W'.
        destruct (_ || _) in E; [apply ok_inv in E; subst R; rewrite app_length in W; cbn in W; lia|].
        destruct b; [|apply ok_inv in E; subst R; rewrite app_length in W; cbn in W; lia].
        destruct (_ || _) in E'; [apply ok_inv in E'; subst R'; rewrite map_length, app_length in W'; cbn in W'; lia|]. auto. }
      destruct G as (_ & G & G'). eapply IH; eauto.
  - assert (ER : R = I ++ [isub xs (isum xs I)]) by (destruct (_ || _) in E; apply ok_inv in E; auto).
    exfalso. unfold with_residue in Li. rewrite ER in Li. rewrite all_of_it_gone in Li by auto. rewrite app_length in Li. cbn in Li. lia.
Qed.
End Emd2d.
Lemma max_opp l mx : np_max l = Ok mx -> np_min (map Qcopp l) = Ok (- mx)%Qc.
Proof.
  destruct l as [|x l]; [discriminate|]. cbn [map]. rewrite np_max_qc, np_min_qc. intros E. apply ok_inv in E. subst mx. f_equal. revert x.
  induction l as [|y l IH]; intros x; [reflexivity|]. cbn [map fold_left].
  assert (E : nltb (- y)%Qc (- x)%Qc = nltb x y) by (cbn [nltb QcNum]; apply bool_iff; rewrite !Qc_ltb_lt; split; intros; qclra).
  rewrite E. destruct (nltb x y); apply IH.
Qed.
Lemma min_opp l mn : np_min l = Ok mn -> np_max (map Qcopp l) = Ok (- mn)%Qc.
Proof.
  destruct l as [|x l]; [discriminate|]. cbn [map]. rewrite np_max_qc, np_min_qc. intros E. apply ok_inv in E. subst mn. f_equal. revert x.
  induction l as [|y l IH]; intros x; [reflexivity|]. cbn [map fold_left].
  assert (E : nltb (- x)%Qc (- y)%Qc = nltb y x) by (cbn [nltb QcNum]; apply bool_iff; rewrite !Qc_ltb_lt; split; intros; qclra).
  rewrite E. destruct (nltb y x); apply IH.
Qed.
Theorem emd2d_neg sbs c fuel fuel' image k n m rows rows' : surface_ok sbs -> inverting sbs -> (0 < n)%nat -> rect n m image ->
  FIXE2 c <> 0 -> 0 < MAX_ITERATION2 c ->
  emd2d sbs c fuel image k = Ok rows -> emd2d sbs c fuel' (negative image) k = Ok rows' ->
  forall i, (S i < length rows)%nat -> (S i < length rows')%nat -> nth i rows' [] = negative (nth i rows []).
Proof.
  intros Hs Hi Hn Hx Hc Hm E E' i Li Li'.
  apply emd2d_parts in E as (lo & hi & comps & E1 & E2 & EZ & E3 & ->). apply emd2d_parts in E' as (lo' & hi' & comps' & E1' & E2' & EZ' & E3' & ->).
  change negative with (imap Qcopp) in E1', E2'. rewrite concat_imap in E1', E2'. rewrite (max_opp _ _ E2) in E1'. rewrite (min_opp _ _ E1) in E2'.
  apply ok_inv in E1', E2'. subst lo' hi'. set (xs := imap (fun y => ndiv (nsub y lo) (nsub hi lo)) image) in *.
  assert (EX : imap (fun y => ndiv (nsub y (- hi)%Qc) (nsub (- lo)%Qc (- hi)%Qc)) (negative image) = inv 1 xs).
  { change negative with (imap Qcopp). unfold xs, inv. rewrite !imap_imap. apply imap_ext. intros y. num_qc.
    replace (- lo - - hi)%Qc with (hi - lo)%Qc by ring. field. auto. }
  rewrite EX in *. clear EX. assert (EZe : izeros (negative image) = izeros image) by apply izeros_imap. rewrite EZe in E3'.
  pose proof (modes2_nonempty _ _ _ _ _ _ _ E3) as NE. pose proof (modes2_nonempty _ _ _ _ _ _ _ E3') as NE'.
  pose proof (with_residue_nonempty xs _ NE) as NW. pose proof (with_residue_nonempty (inv 1 xs) _ NE') as NW'.
  rewrite finish_length in Li, Li' by auto. rewrite !finish_nth by (auto; eapply with_residue_le; eauto).
  rewrite (modes2_inv sbs c n m Hs Hi Hn Hc xs (izeros image) 1%Qc k) with (fuel := fuel) (fuel' := fuel') (im := image) (im' := negative image) (I := []) (R := comps); auto.
  - change negative with (imap Qcopp). rewrite !imap_imap. apply imap_ext. intros y. num_qc. ring.
  - apply rect_imap; auto.
  - apply rect_zeros; auto.
  - rewrite inv_0. apply izeros_neg.
Qed.

(** ** Fits that respond *)
Lemma combine_snd {X Y Z} (g : Y -> Z) (l : list X) : forall k, combine l (map g k) = map (fun q => (fst q, g (snd q))) (combine l k).
Proof. induction l as [|x l IH]; intros [|y k]; auto. cbn. rewrite IH. reflexivity. Qed.
Lemma near_opp l i j : near (map (fun q => (fst q, (- snd q)%Qc)) l) i j = (- near l i j)%Qc.
Proof.
  unfold near, total_of. rewrite !map_map. cbn [fst snd]. 
  assert (E : forall k, fold_right Qcplus 0%Qc (map (fun q : nat * nat * Qc => (weight i j (fst q) * - snd q)%Qc) k) =
    (- fold_right Qcplus 0%Qc (map (fun q => (weight i j (fst q) * snd q)%Qc) k))%Qc).
  { induction k as [|q k IH]; cbn [map fold_right]; [ring|]. rewrite IH. ring. }
  rewrite E. unfold Qcdiv. ring.
Qed.
Lemma near_rbf_odd : odd_rbf near_rbf.
Proof.
  intros ps vs n m. unfold near_rbf. destruct vs as [|v vs]; auto. cbn [map answer]. f_equal. unfold negative. rewrite map_map.
  apply map_ext. intros i. rewrite map_map. apply map_ext. intros j. rewrite <- near_opp. f_equal.
  change (- v :: map Qcopp vs)%Qc with (map Qcopp (v :: vs)). apply combine_snd.
Qed.
Lemma weight_pos i j p : (0 < weight i j p)%Qc.
Proof. unfold weight, Qclt. change (this (Q2Qc (1 # Z.to_pos (1 + dist2 i j p)))) with (Qred (1 # Z.to_pos (1 + dist2 i j p))). rewrite Qred_correct. reflexivity. Qed.
Lemma near_inv a l i j : l <> [] -> near (map (fun q => (fst q, (a - snd q)%Qc)) l) i j = (a - near l i j)%Qc.
Proof.
  intros NE. unfold near, total_of. rewrite !map_map. cbn [fst snd].
  set (W := fold_right Qcplus 0%Qc (map (fun q : nat * nat * Qc => weight i j (fst q)) l)).
  assert (P : (0 < W)%Qc).
  { subst W. destruct l as [|q l]; [congruence|]. clear NE. revert q. induction l as [|r l IH]; intros q.
    - cbn [map fold_right]. pose proof (weight_pos i j (fst q)). qclra.
    - specialize (IH r). cbn [map fold_right] in *. pose proof (weight_pos i j (fst q)).
      revert IH H. generalize (weight i j (fst q)) (weight i j (fst r) + fold_right Qcplus 0 (map (fun q0 : nat * nat * Qc => weight i j (fst q0)) l))%Qc. intros. qclra. }
  assert (E : fold_right Qcplus 0%Qc (map (fun q : nat * nat * Qc => (weight i j (fst q) * (a - snd q))%Qc) l) =
    (a * W - fold_right Qcplus 0%Qc (map (fun q => (weight i j (fst q) * snd q)%Qc) l))%Qc).
  { subst W. clear. induction l as [|q k IH]; cbn [map fold_right]; [ring|]. rewrite IH. ring. }
  rewrite E. field. intros Z. rewrite Z in P. qclra.
Qed.
Lemma near_surface_inverting : inverting near_surface.
Proof.
  intros a ps vs xi yi L. unfold near_surface. destruct vs as [|v vs]; auto. cbn [map answer]. f_equal. unfold inverted. rewrite map_map.
  apply map_ext. intros i. rewrite map_map. apply map_ext. intros j. rewrite <- near_inv.
  - f_equal. change (a - v :: map (fun u => a - u) vs)%Qc with (map (fun u => a - u)%Qc (v :: vs)). apply combine_snd.
  - destruct ps; [discriminate L|]. discriminate.
Qed.
(** The first value everywhere, the last one in the middle of a 7x7 image. *)
Definition corner_surface : surface Qc := fun ps vs xi yi =>
  match vs with [] => Raise ValueError
  | v :: _ => Ok (map (fun i => map (fun j => if (Nat.eqb i 10 && Nat.eqb j 10)%bool then last vs v else v) yi) xi) end.
Lemma last_map {X Y} (g : X -> Y) l d : last (map g l) (g d) = g (last l d).
Proof. induction l as [|x l IH]; auto. cbn [map last]. rewrite IH. destruct l; reflexivity. Qed.
Lemma corner_surface_ok : surface_ok corner_surface.
Proof. intros ps vs xi yi e. unfold corner_surface. destruct vs; intros [= <-]. apply (rect_table (fun i j => if (Nat.eqb i 10 && Nat.eqb j 10)%bool then _ else _)). Qed.
Lemma corner_surface_inverting : inverting corner_surface.
Proof.
  intros a ps vs xi yi _. unfold corner_surface. destruct vs as [|v vs]; auto. 
  change (map (fun u => a - u)%Qc (v :: vs)) with (a - v :: map (fun u => a - u) vs)%Qc at 1. cbv iota. cbn [answer]. f_equal. unfold inverted. rewrite map_map.
  apply map_ext. intros i. rewrite map_map. apply map_ext. intros j. destruct (_ && _)%bool; auto. apply (last_map (fun u => a - u)%Qc).
Qed.
Definition glint : img :=
  let o := 0%Qc in let r := [o; o; o; o; o; o; o] in
  [r; [o; Q2Qc (1 # 100000); o; o; o; o; o]; r; [o; o; o; 1%Qc; o; o; o]; r; r; r].
