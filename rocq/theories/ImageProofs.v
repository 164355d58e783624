(** * ImageProofs: proofs about the image decompositions. *)
From Verif Require Import PyFacts QcFacts Spec Image ImageSpec EmdExact.
From Coq Require Import ZifyBool ZifyNat QArith Qcanon Sorting.Sorted.
Open Scope Z_scope.
Notation img := (list (list Qc)).

(** ** Pixels *)
Lemma pix_pixel (x : img) i j : pix x i j = pixel x i j.
Proof. reflexivity. Qed.
Lemma nth_map_lt {X Y} (f : X -> Y) l d e i : (i < length l)%nat -> nth i (map f l) d = f (nth i l e).
Proof. intros Hi. rewrite nth_indep with (d' := f e) by (rewrite map_length; auto). apply map_nth. Qed.
Lemma nth_map2_lt {X Y Z} (f : X -> Y -> Z) : forall l k i d e g, (i < length l)%nat -> (i < length k)%nat ->
  nth i (map2 f l k) d = f (nth i l e) (nth i k g).
Proof.
  induction l as [|a l IH]; intros [|b k] [|i] d e g; cbn [length map2 nth]; intros; try lia; auto. apply IH; lia.
Qed.
Lemma rect_row n m (x : img) i : rect n m x -> (i < n)%nat -> length (nth i x []) = m.
Proof. intros [L F] Hi. rewrite Forall_forall in F. apply F. apply nth_In. lia. Qed.
Lemma rect_intro n m (x : img) : length x = n -> (forall i, (i < n)%nat -> length (nth i x []) = m) -> rect n m x.
Proof.
  intros L H. split; auto. apply Forall_forall. intros r Hr. destruct (In_nth _ _ [] Hr) as (i & Hi & <-). apply H. lia.
Qed.
Lemma rect_imap n m f (x : img) : rect n m x -> rect n m (imap f x).
Proof.
  intros [L F]. split; [unfold imap; rewrite map_length; auto|]. unfold imap. rewrite Forall_map.
  eapply Forall_impl; [|exact F]. cbn. intros r Hr. rewrite map_length. auto.
Qed.
Lemma rect_imap2 n m f (x y : img) : rect n m x -> rect n m y -> rect n m (imap2 f x y).
Proof.
  intros Hx Hy. assert (Lx := proj1 Hx). assert (Ly := proj1 Hy).
  apply rect_intro; [unfold imap2; rewrite map2_length; lia|]. intros i Hi. unfold imap2.
  rewrite (nth_map2_lt _ _ _ _ _ [] []) by lia. rewrite map2_length, (rect_row n m), (rect_row n m) by auto. lia.
Qed.
Lemma pixel_imap n m f (x : img) i j : rect n m x -> (i < n)%nat -> (j < m)%nat -> pixel (imap f x) i j = f (pixel x i j).
Proof.
  intros Hx Hi Hj. unfold pixel, imap. assert (Lx := proj1 Hx).
  rewrite (nth_map_lt _ _ _ []) by lia. rewrite (nth_map_lt _ _ _ 0%Qc) by (rewrite (rect_row n m); auto). auto.
Qed.
Lemma pixel_imap2 n m f (x y : img) i j : rect n m x -> rect n m y -> (i < n)%nat -> (j < m)%nat ->
  pixel (imap2 f x y) i j = f (pixel x i j) (pixel y i j).
Proof.
  intros Hx Hy Hi Hj. unfold pixel, imap2. assert (Lx := proj1 Hx). assert (Ly := proj1 Hy).
  rewrite (nth_map2_lt _ _ _ _ _ [] []) by lia.
  rewrite (nth_map2_lt _ _ _ _ _ 0%Qc 0%Qc) by (rewrite (rect_row n m); auto). auto.
Qed.
Lemma image_ext n m (x y : img) : rect n m x -> rect n m y -> same_pixels n m x y -> x = y.
Proof.
  intros Hx Hy E. assert (Lx := proj1 Hx). assert (Ly := proj1 Hy).
  apply (nth_ext _ _ [] []); [lia|]. intros i Hi. apply (nth_ext _ _ 0%Qc 0%Qc).
  - rewrite (rect_row n m), (rect_row n m) by (auto; lia). auto.
  - intros j Hj. rewrite (rect_row n m) in Hj by (auto; lia). apply E; lia.
Qed.
Lemma rect_zeros n m (x : img) : rect n m x -> rect n m (izeros x).
Proof. apply rect_imap. Qed.

(** Sums. *)
Lemma isum_snoc x (l : list img) r : isum x (l ++ [r]) = iadd (isum x l) r.
Proof. unfold isum. rewrite fold_left_app. reflexivity. Qed.
Lemma stack_sum_app l k i j : (stack_sum (l ++ k) i j = stack_sum l i j + stack_sum k i j)%Qc.
Proof.
  unfold stack_sum. rewrite map_app. induction (map (fun r => pixel r i j) l) as [|a s IH]; cbn [app fold_right]; [ring|].
  rewrite IH. ring.
Qed.
Lemma isum_spec n m x (l : list img) : rect n m x -> Forall (rect n m) l ->
  rect n m (isum x l) /\ forall i j, (i < n)%nat -> (j < m)%nat -> pixel (isum x l) i j = stack_sum l i j.
Proof.
  intros Hx. induction l as [|r l IH] using rev_ind; intros F.
  - split; [apply rect_zeros; auto|]. intros i j Hi Hj. unfold isum, izeros. cbn [fold_left].
    rewrite (pixel_imap n m) by auto. reflexivity.
  - apply Forall_app in F. destruct F as [F1 F2]. inversion_clear F2. destruct (IH F1) as [R E].
    rewrite isum_snoc. split; [apply rect_imap2; auto|]. intros i j Hi Hj.
    unfold iadd. rewrite (pixel_imap2 n m) by auto. rewrite stack_sum_app, E by auto.
    unfold stack_sum at 3. cbn [map fold_right]. change nadd with Qcplus. ring.
Qed.

(** ** prepare_image *)
Lemma rect_flipud n m (x : img) : rect n m x -> rect n m (flipud x).
Proof. intros [L F]. split; [unfold flipud; rewrite rev_length; auto|]. apply Forall_rev. auto. Qed.
Lemma rect_fliplr n m (x : img) : rect n m x -> rect n m (fliplr x).
Proof.
  intros [L F]. split; [unfold fliplr; rewrite map_length; auto|]. unfold fliplr. rewrite Forall_map.
  eapply Forall_impl; [|exact F]. cbn. intros. rewrite rev_length. auto.
Qed.
Lemma pixel_flipud n m (x : img) i j : rect n m x -> (i < n)%nat -> pixel (flipud x) i j = pixel x (n - 1 - i) j.
Proof.
  intros [L _] Hi. unfold pixel, flipud. rewrite rev_nth by lia. do 2 f_equal. lia.
Qed.
Lemma pixel_fliplr n m (x : img) i j : rect n m x -> (i < n)%nat -> (j < m)%nat -> pixel (fliplr x) i j = pixel x i (m - 1 - j).
Proof.
  intros Hx Hi Hj. unfold pixel, fliplr. rewrite (nth_map_lt _ _ _ []) by (rewrite (proj1 Hx); auto).
  rewrite rev_nth by (rewrite (rect_row n m); auto). rewrite (rect_row n m) by auto. f_equal. lia.
Qed.
Lemma map3_length {X Y Z W} (f : X -> Y -> Z -> W) : forall a b c, length a = length b -> length b = length c ->
  length (map3 f a b c) = length a.
Proof. induction a as [|x a IH]; intros [|y b] [|z c]; cbn [length map3]; intros; try discriminate; auto. Qed.
Lemma nth_map3 {X Y Z W} (f : X -> Y -> Z -> W) : forall a b c i d dx dy dz,
  (i < length a)%nat -> length a = length b -> length b = length c ->
  nth i (map3 f a b c) d = f (nth i a dx) (nth i b dy) (nth i c dz).
Proof.
  induction a as [|x a IH]; intros [|y b] [|z c] [|i]; cbn [length map3 nth]; intros; try discriminate; try lia; auto.
  apply IH; lia.
Qed.
Lemma hstack3_spec n m (x y z : img) : rect n m x -> rect n m y -> rect n m z ->
  rect n (3 * m) (hstack3 x y z) /\ forall i j, (i < n)%nat -> (j < 3 * m)%nat ->
  pixel (hstack3 x y z) i j =
    if (j <? m)%nat then pixel x i j else if (j <? 2 * m)%nat then pixel y i (j - m) else pixel z i (j - 2 * m).
Proof.
  intros Hx Hy Hz. assert (Lx := proj1 Hx). assert (Ly := proj1 Hy). assert (Lz := proj1 Hz).
  unfold hstack3. split.
  - apply rect_intro; [rewrite map3_length; congruence|]. intros i Hi.
    rewrite (nth_map3 _ _ _ _ _ _ [] [] []) by congruence.
    rewrite !app_length, !(rect_row n m) by auto. lia.
  - intros i j Hi Hj. unfold pixel. rewrite (nth_map3 _ _ _ _ _ _ [] [] []) by congruence.
    destruct (Nat.ltb_spec j m).
    { rewrite app_nth1 by (rewrite (rect_row n m); auto). auto. }
    rewrite app_nth2 by (rewrite (rect_row n m); auto). rewrite (rect_row n m) by auto.
    destruct (Nat.ltb_spec j (2 * m)).
    { rewrite app_nth1 by (rewrite (rect_row n m); auto; lia). auto. }
    rewrite app_nth2 by (rewrite (rect_row n m); auto; lia). rewrite (rect_row n m) by auto. f_equal. lia.
Qed.
Lemma vstack3_spec n m (x y z : img) : rect n m x -> rect n m y -> rect n m z ->
  rect (3 * n) m (x ++ y ++ z) /\ forall i j, (i < 3 * n)%nat ->
  pixel (x ++ y ++ z) i j =
    if (i <? n)%nat then pixel x i j else if (i <? 2 * n)%nat then pixel y (i - n) j else pixel z (i - 2 * n) j.
Proof.
  intros Hx Hy Hz. assert (Lx := proj1 Hx). assert (Ly := proj1 Hy). assert (Lz := proj1 Hz). split.
  - split; [rewrite !app_length; lia|]. apply Forall_app. split; [apply Hx|]. apply Forall_app. split; [apply Hy|apply Hz].
  - intros i j Hi. unfold pixel. destruct (Nat.ltb_spec i n); [rewrite app_nth1 by lia; auto|].
    rewrite app_nth2 by lia. destruct (Nat.ltb_spec i (2 * n)); [rewrite app_nth1 by lia; f_equal; f_equal; lia|].
    rewrite app_nth2 by lia. f_equal. f_equal. lia.
Qed.

Lemma prepare_image_spec n m x : rect n m x ->
  rect (3 * n) (3 * m) (prepare_image x) /\
  forall i j, (i < 3 * n)%nat -> (j < 3 * m)%nat ->
    pixel (prepare_image x) i j = pixel x (mirrored n i) (mirrored m j).
Proof.
  intros Hx. unfold prepare_image.
  assert (H1 := rect_fliplr n m x Hx). assert (H2 := rect_flipud n m x Hx).
  assert (H3 := rect_flipud n m _ H1). assert (H4 := rect_fliplr n m _ H2).
  destruct (hstack3_spec n m _ _ _ H3 H2 H4) as [R1 E1].
  destruct (hstack3_spec n m _ _ _ H1 Hx H1) as [R2 E2].
  destruct (vstack3_spec n (3 * m) _ _ _ R1 R2 R1) as [R E]. split; [exact R|].
  assert (T : forall i j, (i < n)%nat -> (j < 3 * m)%nat ->
     pixel (hstack3 (flipud (fliplr x)) (flipud x) (fliplr (flipud x))) i j = pixel x (n - 1 - i) (mirrored m j)).
  { intros i j Hi Hj. rewrite E1 by auto. unfold mirrored.
    destruct (Nat.ltb_spec j m); [rewrite (pixel_flipud n m), (pixel_fliplr n m) by (auto; lia); auto|].
    destruct (Nat.ltb_spec j (2 * m)); [rewrite (pixel_flipud n m) by auto; auto|].
    rewrite (pixel_fliplr n m), (pixel_flipud n m) by (auto; lia). f_equal. lia. }
  intros i j Hi Hj. rewrite E by auto. unfold mirrored at 1.
  destruct (Nat.ltb_spec i n); [apply T; auto|].
  destruct (Nat.ltb_spec i (2 * n)).
  - rewrite E2 by lia. unfold mirrored.
    destruct (Nat.ltb_spec j m); [rewrite (pixel_fliplr n m) by (auto; lia); auto|].
    destruct (Nat.ltb_spec j (2 * m)); auto.
    rewrite (pixel_fliplr n m) by (auto; lia). f_equal. lia.
  - rewrite T by lia. f_equal. lia.
Qed.

(** ** find_extrema *)
Lemma nrows_rect n m (x : img) : rect n m x -> nrows x = n.
Proof. intros [L _]. exact L. Qed.
Lemma ncols_rect n m (x : img) : rect n m x -> (0 < n)%nat -> ncols x = m.
Proof. intros [L F] Hn. unfold ncols. destruct x; [cbn in L; lia|]. inversion_clear F. auto. Qed.

Lemma largest_spec (l : list Qc) : l <> [] -> In (largest l) l /\ forall y, In y l -> (y <= largest l)%Qc.
Proof.
  destruct l as [|a l]; [congruence|]. intros _. unfold largest.
  assert (G : forall l a, let r := fold_left (fun m y : Qc => if nltb m y then y else m) l a in
    (r = a \/ In r l) /\ (a <= r)%Qc /\ forall y, In y l -> (y <= r)%Qc).
  { clear. induction l as [|b l IH]; intros a; cbn [fold_left].
    - split; [auto|]. split; [apply Qcle_refl|]. intros y [].
    - destruct (IH (if nltb a b then b else a)) as (I & L & U). cbv zeta in *.
      set (r := fold_left _ l _) in *. destruct (nltb a b) eqn:E; change (Qc_ltb a b = true) in E || change (Qc_ltb a b = false) in E.
      + apply Qc_ltb_lt in E. split; [destruct I as [->|I]; [right; left; auto|right; right; auto]|].
        split; [eapply Qcle_trans; [apply Qclt_le_weak; exact E|exact L]|].
        intros y [<-|Hy]; auto.
      + apply Qc_ltb_ge in E. split; [destruct I as [->|I]; auto; right; right; auto|].
        split; [exact L|]. intros y [<-|Hy]; [eapply Qcle_trans; eauto|auto]. }
  destruct (G l a) as (I & L & U). split; [destruct I as [->|I]; [left|right]; auto|].
  intros y [<-|Hy]; auto.
Qed.

Lemma window_In (x : img) i j y : (0 < i)%nat -> (0 < j)%nat ->
  In y (window x i j) <-> exists a b, neighbour i j a b /\ y = pixel x a b.
Proof.
  intros Hi Hj. unfold window. cbn [In]. unfold neighbour. split.
  - intros H. repeat (destruct H as [<-|H]; [eexists _, _; split; [|reflexivity]; lia|]). destruct H.
  - intros (a & b & H & ->).
    assert (A : a = (i - 1)%nat \/ a = i \/ a = (i + 1)%nat) by lia.
    assert (B : b = (j - 1)%nat \/ b = j \/ b = (j + 1)%nat) by lia.
    destruct A as [->|[->| ->]], B as [->|[->| ->]]; rewrite !pix_pixel; tauto.
Qed.

Lemma is_peak_spec n m x i j : rect n m x -> (0 < n)%nat ->
  is_peak x (i, j) = true <-> local_max n m x i j.
Proof.
  intros Hx Hn. unfold is_peak, inside, local_max, interior. cbn [fst snd].
  rewrite (nrows_rect n m), (ncols_rect n m) by auto.
  rewrite andb_true_iff. change neqb with Qc_eqb. rewrite Qc_eqb_eq.
  assert (A : (0 <? i)%nat && (i + 1 <? n)%nat && ((0 <? j)%nat && (j + 1 <? m)%nat) = true
    <-> (0 < i /\ i + 1 < n /\ 0 < j /\ j + 1 < m)%nat) by lia.
  rewrite A. clear A.
  assert (W : window x i j <> []) by discriminate.
  destruct (largest_spec _ W) as [I U]. rewrite pix_pixel. split.
  - intros [HI E]. split; auto. intros a b Hab. rewrite <- E. apply U. apply window_In; try lia. eauto.
  - intros [HI L]. split; auto. apply Qcle_antisym.
    + apply window_In in I; try lia. destruct I as (a & b & Hab & ->). auto.
    + apply U. apply window_In; try lia. exists i, j. split; auto. unfold neighbour. lia.
Qed.

Lemma grid_In n m p : In p (grid n m) <-> (fst p < n /\ snd p < m)%nat.
Proof. destruct p as [i j]. unfold grid. rewrite in_prod_iff, !in_seq. cbn [fst snd]. lia. Qed.
Lemma grid_sorted n m : StronglySorted before (grid n m).
Proof.
  unfold grid. assert (G : forall k, StronglySorted before (list_prod (seq k n) (seq 0 m))); [|apply G].
  induction n as [|n IH]; intros k; cbn [seq list_prod]; [constructor|].
  assert (R : forall a s, StronglySorted before (map (fun y => (k, y)) (seq a s)) /\
     Forall (fun p => fst p = k /\ (a <= snd p)%nat) (map (fun y => (k, y)) (seq a s))).
  { intros a s. revert a. induction s as [|s IHs]; intros a; cbn [seq map]; [split; constructor|].
    destruct (IHs (S a)) as [S1 F1]. split.
    - constructor; auto. eapply Forall_impl; [|exact F1]. cbn. intros p Hp. right. cbn. lia.
    - constructor; [cbn; lia|]. eapply Forall_impl; [|exact F1]. cbn. intros; lia. }
  assert (App : forall l r : list (nat * nat), StronglySorted before l -> StronglySorted before r ->
    (forall p q, In p l -> In q r -> before p q) -> StronglySorted before (l ++ r)).
  { clear. induction l as [|a l IH]; intros r Hl Hr Hb; auto. inversion_clear Hl. cbn [app]. constructor.
    - apply IH; auto. intros; apply Hb; auto. right; auto.
    - apply Forall_app. split; auto. apply Forall_forall. intros q Hq. apply Hb; auto. left; auto. }
  apply App; [apply R|apply IH|].
  intros [a b] [c d] Hp Hq. apply in_map_iff in Hp. destruct Hp as (y & E & _). injection E as <- <-.
  apply in_prod_iff in Hq. rewrite !in_seq in Hq. left. cbn. lia.
Qed.
Lemma sorted_filter {X} (R : X -> X -> Prop) f l : StronglySorted R l -> StronglySorted R (filter f l).
Proof.
  induction 1 as [|a l Hs IH Ha]; cbn [filter]; [constructor|]. destruct (f a); auto. constructor; auto.
  apply Forall_forall. intros y Hy. apply filter_In in Hy. rewrite Forall_forall in Ha. apply Ha. apply Hy.
Qed.
Lemma peaks_spec n m x : rect n m x -> (0 < n)%nat ->
  StronglySorted before (peaks x) /\ forall i j, In (i, j) (peaks x) <-> local_max n m x i j.
Proof.
  intros Hx Hn. unfold peaks. split; [apply sorted_filter, grid_sorted|].
  intros i j. rewrite filter_In, grid_In, (is_peak_spec n m) by auto. cbn [fst snd].
  rewrite (nrows_rect n m), (ncols_rect n m) by auto. unfold local_max, interior. intuition lia.
Qed.
Lemma find_extrema2_spec n m x : rect n m x -> (0 < n)%nat ->
  exists mins maxs, find_extrema2 x = (mins, maxs) /\
  StronglySorted before mins /\ StronglySorted before maxs /\
  (forall i j, In (i, j) mins <-> local_min n m x i j) /\
  (forall i j, In (i, j) maxs <-> local_max n m x i j).
Proof.
  intros Hx Hn. unfold find_extrema2. eexists _, _. split; [reflexivity|].
  destruct (peaks_spec n m x Hx Hn) as [S1 E1].
  destruct (peaks_spec n m (imap nopp x) (rect_imap n m _ x Hx) Hn) as [S2 E2].
  split; [auto|]. split; [auto|]. split; [|auto].
  intros i j. rewrite E2. unfold local_max, local_min.
  assert (A : forall P Q R : Prop, (P -> (Q <-> R)) -> (P /\ Q <-> P /\ R)) by tauto. apply A. intros HI.
  unfold interior in HI.
  split; intros L a b Hab; specialize (L a b Hab); unfold neighbour in Hab;
    rewrite !(pixel_imap n m nopp x) in * by (auto; lia); change nopp with Qcopp in *; qclra.
Qed.
