(** * FloatImage: reconstruction by EMD2D and BEMD in binary64. *)
From Flocq Require Import Core BinarySingleNaN.
From Coq Require Import Reals Lra Lia List QArith Qcanon Qreals.
From Verif Require Import Py PyFacts QcFacts Emd Jit Image Spec JitProofs Float64 FloatSpec EmdProofs Float64Proofs FloatEnsemble.
From Coq Require Import Lra.
Import ListNotations.
Open Scope Z_scope.
Notation img := (list (list f64)).

(** ** Pixels *)
Lemma shape_row n m (x : img) i : of_shape n m x -> (i < n)%nat -> length (nth i x []) = m.
Proof. intros [L F] Hi. apply (proj1 (Forall_forall _ _) F). apply nth_In. lia. Qed.
Lemma shape_intro n m (x : img) : length x = n -> (forall i, (i < n)%nat -> length (nth i x []) = m) -> of_shape n m x.
Proof.
  intros L H. split; auto. apply Forall_forall. intros r Hr. apply In_nth with (d := []) in Hr as (i & Hi & <-). apply H. lia.
Qed.
Lemma shape_imap n m f (x : img) : of_shape n m x <-> of_shape n m (imap f x).
Proof.
  unfold of_shape, imap. rewrite map_length, Forall_map.
  assert (E : Forall (fun r => length (map f r) = m) x <-> Forall (fun r => length r = m) x).
  { split; apply Forall_impl; intros r; rewrite map_length; auto. }
  rewrite E. tauto.
Qed.
Lemma shape_imap2 n m f (x y : img) : of_shape n m x -> of_shape n m y -> of_shape n m (imap2 f x y).
Proof.
  intros Hx Hy. apply shape_intro; unfold imap2.
  - rewrite map2_length_eq; destruct Hx, Hy; congruence.
  - intros i Hi. rewrite (nth_map2 (map2 f) _ _ i [] [] []) by (destruct Hx, Hy; lia).
    rewrite map2_length_eq; rewrite !(shape_row n m); auto.
Qed.
Lemma grey_imap n m f (x : img) i j : of_shape n m x -> (i < n)%nat -> (j < m)%nat -> grey (imap f x) i j = f (grey x i j).
Proof.
  intros Hx Hi Hj. unfold grey, imap. rewrite (nth_map_in (map f) x i [] []) by (destruct Hx; lia).
  apply (nth_map_in f). rewrite (shape_row n m); auto.
Qed.
Lemma grey_imap2 n m f (x y : img) i j : of_shape n m x -> of_shape n m y -> (i < n)%nat -> (j < m)%nat ->
  grey (imap2 f x y) i j = f (grey x i j) (grey y i j).
Proof.
  intros Hx Hy Hi Hj. unfold grey, imap2. rewrite (nth_map2 (map2 f) _ _ i [] [] []) by (destruct Hx, Hy; lia).
  apply nth_map2; rewrite (shape_row n m); auto.
Qed.
Lemma grey_isum n m (x : img) (l : list img) i j : of_shape n m x -> Forall (of_shape n m) l -> (i < n)%nat -> (j < m)%nat ->
  of_shape n m (isum x l) /\ grey (isum x l) i j = fold_left nadd (map (fun r => grey r i j) l) n0.
Proof.
  intros Hx Hl Hi Hj. unfold isum.
  assert (G : forall acc, of_shape n m acc -> of_shape n m (fold_left iadd l acc) /\
    grey (fold_left iadd l acc) i j = fold_left nadd (map (fun r => grey r i j) l) (grey acc i j)).
  { induction Hl as [|r l Hr Hl IH]; intros acc Ha; [auto|]. cbn [fold_left map].
    destruct (IH (iadd acc r)) as [I1 I2]; [apply shape_imap2; auto|]. split; auto. rewrite I2. f_equal. apply (grey_imap2 n m); auto. }
  destruct (G (izeros x)) as [G1 G2]; [apply shape_imap; auto|]. split; auto. rewrite G2. f_equal. apply (grey_imap n m); auto.
Qed.

(** ** Extremes of finite numbers *)
Lemma ltb_finite (x y : f64) : finite x -> finite y -> nltb x y = Rlt_bool (B2R x) (B2R y).
Proof. intros Fx Fy. apply (Bltb_correct 53 1024 x y Fx Fy). Qed.
Lemma not_nan_finite (x : f64) : finite x -> not_a_number x = false.
Proof.
  intros Fx. unfold not_a_number. change (nleb x x) with (Bleb x x). rewrite (Bleb_correct 53 1024 x x Fx Fx), Rle_bool_true by lra. reflexivity.
Qed.
Lemma find_nan_finite (l : list f64) : Forall finite l -> find not_a_number l = None.
Proof. induction 1 as [|x l Fx Fl IH]; [reflexivity|]. cbn [find]. rewrite not_nan_finite by auto. exact IH. Qed.
Lemma min64 (l : list f64) lo : Forall finite l -> np_min l = Ok lo -> In lo l /\ forall x, In x l -> (B2R lo <= B2R x)%R.
Proof.
  destruct l as [|x l]; [discriminate|]. intros F. unfold np_min. rewrite find_nan_finite by auto. intros E. assert (E' : fold_left (fun m y => if nltb y m then y else m) l x = lo) by congruence.
  clear E. inversion F as [|? ? Fx Fl]; subst. clear F. revert x Fx. induction l as [|y l IH]; intros x Fx; cbn [fold_left].
  - split; [left; auto|]. intros z [->|[]]. lra.
  - inversion Fl as [|? ? Fy Fl']; subst. destruct (IH Fl' (if nltb y x then y else x)) as [I1 I2]; [destruct (nltb y x); auto|].
    rewrite (ltb_finite y x) in * by auto. destruct (Rlt_bool_spec (B2R y) (B2R x)) as [C|C]; (split; [destruct I1 as [<-|I1]; [cbn; auto|right; right; auto]|]).
    + intros z [<-|[<-|Hz]]; [apply Rle_trans with (B2R y); [apply I2; left; auto|lra]|apply I2; left; auto|apply I2; right; auto].
    + intros z [<-|[<-|Hz]]; [apply I2; left; auto|apply Rle_trans with (B2R x); [apply I2; left; auto|lra]|apply I2; right; auto].
Qed.
Lemma max64 (l : list f64) hi : Forall finite l -> np_max l = Ok hi -> In hi l /\ forall x, In x l -> (B2R x <= B2R hi)%R.
Proof.
  destruct l as [|x l]; [discriminate|]. intros F. unfold np_max. rewrite find_nan_finite by auto. intros E. assert (E' : fold_left (fun m y => if nltb m y then y else m) l x = hi) by congruence.
  clear E. inversion F as [|? ? Fx Fl]; subst. clear F. revert x Fx. induction l as [|y l IH]; intros x Fx; cbn [fold_left].
  - split; [left; auto|]. intros z [->|[]]. lra.
  - inversion Fl as [|? ? Fy Fl']; subst. destruct (IH Fl' (if nltb x y then y else x)) as [I1 I2]; [destruct (nltb x y); auto|].
    rewrite (ltb_finite x y) in * by auto. destruct (Rlt_bool_spec (B2R x) (B2R y)) as [C|C]; (split; [destruct I1 as [<-|I1]; [cbn; auto|right; right; auto]|]).
    + intros z [<-|[<-|Hz]]; [apply Rle_trans with (B2R y); [lra|apply I2; left; auto]|apply I2; left; auto|apply I2; right; auto].
    + intros z [<-|[<-|Hz]]; [apply I2; left; auto|apply Rle_trans with (B2R x); [lra|apply I2; left; auto]|apply I2; right; auto].
Qed.
Lemma concat_grey n m (x : img) a : of_shape n m x -> In a (concat x) <-> exists i j, (i < n)%nat /\ (j < m)%nat /\ grey x i j = a.
Proof.
  intros Hx. split.
  - intros H. apply in_concat in H as (r & Hr & Ha). apply In_nth with (d := []) in Hr as (i & Hi & <-).
    apply In_nth with (d := n0) in Ha as (j & Hj & <-). exists i, j. destruct Hx as [L F]. split; [lia|]. split; [|reflexivity].
    rewrite (shape_row n m) in Hj; [auto|split; auto|lia].
  - intros (i & j & Hi & Hj & <-). apply in_concat. exists (nth i x []). split; [apply nth_In; destruct Hx; lia|].
    apply nth_In. rewrite (shape_row n m); auto.
Qed.

(** ** The loop *)
Lemma modes2_some (sift : img -> res (img * bool)) fuel image image_s k IMF R :
  modes2 sift fuel image image_s k IMF = Ok R -> R <> [].
Proof.
  revert IMF. induction fuel as [|fuel IH]; intros IMF; cbn [modes2]; [discriminate|].
  destruct (sift _) as [[imf b]|]; cbn [bind]; [|discriminate].
  destruct (_ || _); [intros E; assert (E' : IMF ++ [imf] = R) by congruence; subst; destruct IMF; discriminate|].
  destruct b; [apply IH|intros E; assert (E' : IMF ++ [imf] = R) by congruence; subst; destruct IMF; discriminate].
Qed.
Open Scope R_scope.
Lemma tol_bound : (1 + u53) * B2R (nlit 1 (10 ^ 8) : f64) <= tol64.
Proof.
  assert (H : (Q2R (value (nlit 1 (10 ^ 8))) <= Q2R (Q2Qc (100001 # 10 ^ 13)))).
  { apply Qle_Rle. apply Qle_bool_imp_le. vm_compute. reflexivity. }
  rewrite value_B2R in H.
  assert (E : Q2R (Q2Qc (100001 # 10 ^ 13)) = 100001 / 10000000000000).
  { change (this (Q2Qc (100001 # 10 ^ 13))) with (100001 # 10000000000000). unfold Q2R. cbn [Qnum Qden]. reflexivity. }
  rewrite E in H. unfold tol64.
  assert (u53 <= / 1000000). { change u53 with (bpow radix2 (-53)). cbn [bpow]. apply Rinv_le; [lra|]. cbn. lra. }
  pose proof u53_pos. nra.
Qed.
Lemma leb_finite (x t : f64) : is_finite t = true -> nleb (nabs x) t = true -> is_finite x = true /\ Rabs (B2R x) <= B2R t.
Proof.
  intros Ft H. assert (Fx : is_finite x = true).
  { destruct x as [[]|[]| |]; auto; destruct t as [[]|[]| |[]]; discriminate. }
  split; auto. assert (Fa : is_finite (Babs x) = true) by (rewrite is_finite_Babs; auto).
  change (Bleb (Babs x) t = true) in H. rewrite (Bleb_correct 53 1024 _ _ Fa Ft) in H. rewrite B2R_Babs in H.
  destruct (Rle_bool_spec (Rabs (B2R x)) (B2R t)); [auto|discriminate].
Qed.
Lemma residue_error n m (x : img) (l : list img) i j : of_shape n m x -> Forall (of_shape n m) l -> (i < n)%nat -> (j < m)%nat ->
  let R := map (fun r => grey r i j) (with_residue x l) in
  (forall a, In a R -> is_finite a = true) ->
  is_finite (grey x i j) = true /\
  Rabs (B2R (grey x i j) - rsum (map B2R R)) <= ((1 + u53) ^ Nat.pred (length R) - 1) * rsum (map (fun a => Rabs (B2R a)) R) + tol64.
Proof.
  intros Hx Hl Hi Hj. cbv zeta. intros F.
  destruct (grey_isum n m x l i j Hx Hl Hi Hj) as [Hs Es].
  set (p := map (fun r => grey r i j) l) in *.
  assert (Er : grey (isub x (isum x l)) i j = nsub (grey x i j) (fold_left nadd p n0)).
  { rewrite <- Es. apply (grey_imap2 n m); auto. }
  assert (Ht : 0 < tol64) by (unfold tol64; lra).
  unfold with_residue in *. destruct (forallb allclose0 (isub x (isum x l))) eqn:Ea.
  - fold p in F |- *. rewrite forallb_forall in Ea.
    assert (Hin : In (nth i (isub x (isum x l)) []) (isub x (isum x l))).
    { apply nth_In. rewrite (proj1 (shape_imap2 n m nsub x (isum x l) Hx Hs : of_shape n m (isub x (isum x l)))). auto. }
    specialize (Ea _ Hin). unfold allclose0 in Ea. rewrite forallb_forall in Ea.
    assert (Hj' : In (grey (isub x (isum x l)) i j) (nth i (isub x (isum x l)) [])).
    { apply nth_In. rewrite (shape_row n m); auto. apply shape_imap2; auto. }
    specialize (Ea _ Hj'). rewrite Er in Ea. apply leb_finite in Ea as [Fr Hr]; [|reflexivity].
    destruct (minus_finite _ _ Fr) as [Fx Fl]. split; auto.
    pose proof (minus_error_r _ _ Fr) as H1. pose proof (sum_error p Fl) as H2. pose proof tol_bound as H3. pose proof u53_pos as H4.
    set (r := B2R (nsub (grey x i j) (fold_left nadd p n0))) in *. set (L := B2R (fold_left nadd p n0)) in *.
    set (y := B2R (grey x i j)) in *.
    replace (y - rsum (map B2R p)) with ((L - rsum (map B2R p)) + (r - (r - (y - L)))) by ring.
    eapply Rle_trans; [apply Rabs_triang|].
    assert (Rabs (r - (r - (y - L))) <= Rabs r + Rabs (r - (y - L))).
    { unfold Rminus at 1. eapply Rle_trans; [apply Rabs_triang|]. rewrite Rabs_Ropp. lra. }
    pose proof (Rabs_pos r). assert (u53 * Rabs r <= u53 * B2R (nlit 1 (10 ^ 8) : f64)) by (apply Rmult_le_compat_l; lra).
    change (Rabs (L - rsum (map B2R p)) <= ((1 + u53) ^ Nat.pred (length p) - 1) * rsum (map (fun a => Rabs (B2R a)) p)) in H2. lra.
  - rewrite map_app in F |- *. cbn [map] in F |- *. rewrite Er in F |- *. fold p in F |- *.
    assert (Fr : is_finite (nsub (grey x i j) (fold_left nadd p n0)) = true) by (apply F, in_app_iff; right; left; auto).
    split; [apply minus_finite in Fr; tauto|].
    pose proof (rest_error (grey x i j) p Fr) as H1. cbv beta zeta in H1. rewrite app_length. cbn [length].
    rewrite Nat.add_1_r. cbn [Nat.pred]. set (q := p ++ [_]) in *.
    change (Rabs (B2R (grey x i j) - rsum (map B2R q)) <= ((1 + u53) ^ length p - 1) * rsum (map (fun x => Rabs (B2R x)) q)) in H1. lra.
Qed.

(** ** BEMD *)
Lemma bemd_float rec f c fuel (image : img) k rows n m i j :
  bemd rec f c fuel image k = Ok rows -> of_shape n m image -> Forall (of_shape n m) rows -> (i < n)%nat -> (j < m)%nat ->
  (forall r, In r rows -> finite (grey r i j)) ->
  Rabs (B2R (grey image i j) - grey_sum rows i j) <= ((1 + u53) ^ Nat.pred (length rows) - 1) * grey_size rows i j + tol64.
Proof.
  unfold bemd. intros E Hx HR Hi Hj F. destruct (modes2 _ _ _ _ _ _) as [IMF|]; [|discriminate E]. cbn [bind] in E.
  assert (ER : rows = with_residue image IMF) by congruence. clear E.
  assert (HI : Forall (of_shape n m) IMF).
  { rewrite ER in HR. unfold with_residue in HR. destruct (forallb _ _); auto. apply Forall_app in HR. tauto. }
  destruct (residue_error n m image IMF i j Hx HI Hi Hj) as [_ H].
  { rewrite <- ER. intros a Ha. apply in_map_iff in Ha as (r & <- & Hr). apply F; auto. }
  rewrite <- ER, map_length, !map_map in H. exact H.
Qed.
(** ** EMD2D *)
Lemma emd2d_float sbs c fuel (image : img) k rows n m :
  emd2d sbs c fuel image k = Ok rows -> of_shape n m image -> Forall (of_shape n m) rows ->
  (forall i j, (i < n)%nat -> (j < m)%nat -> finite (grey image i j)) ->
  exists lo hi, range_of n m image lo hi /\
  forall i j, (i < n)%nat -> (j < m)%nat -> (forall r, In r rows -> finite (grey r i j)) ->
  let N := length rows in let s := nsub hi lo in let y := B2R (grey image i j) in
  Rabs (y - grey_sum rows i j) <=
    ((1 + u53) ^ 2 - 1) * Rabs (y - B2R lo) + ((1 + u53) ^ S N - 1) * (grey_size rows i j + Rabs (B2R lo))
    + tol64 * Rabs (B2R s) + eta * (Rabs (B2R s) + INR N * (1 + u53) ^ N).
Proof.
  unfold emd2d. intros E Hx HR FX.
  assert (FC : Forall finite (concat image)).
  { apply Forall_forall. intros a Ha. apply (concat_grey n m) in Ha as (i & j & Hi & Hj & <-); auto. }
  destruct (np_min (concat image)) as [lo|] eqn:Elo; [|discriminate E]. cbn [bind] in E.
  destruct (np_max (concat image)) as [hi|] eqn:Ehi; [|discriminate E]. cbn [bind] in E.
  apply min64 in Elo as [Ilo Lo]; auto. apply max64 in Ehi as [Ihi Hi']; auto.
  exists lo, hi. split.
  { split; [apply (concat_grey n m); auto|]. split; [apply (concat_grey n m); auto|].
    intros i j Hi Hj. assert (In (grey image i j) (concat image)) by (apply (concat_grey n m); eauto). auto. }
  set (s := nsub hi lo) in *. destruct (neqb s n0); [discriminate E|].
  set (xs := imap (fun y => ndiv (nsub y lo) s) image) in *.
  destruct (modes2 _ _ _ _ _ _) as [IMF|] eqn:EM; [|discriminate E]. cbn [bind] in E. apply modes2_some in EM.
  set (W := with_residue xs IMF) in *.
  assert (HW : exists l z, W = l ++ [z]).
  { assert (NW : W <> []) by (unfold W, with_residue; destruct (forallb _ _); auto; destruct IMF; discriminate).
    destruct (exists_last NW) as (l & z & ->). eauto. }
  destruct HW as (l & z & EW).
  assert (ER : rows = map (imap (fun y => nmul y s)) l ++ [imap (fun y => nadd y lo) (imap (fun y => nmul y s) z)]).
  { rewrite EW, map_app in E. cbn [map] in E. unfold on_last in E. rewrite rev_unit in E. cbn [rev] in E. rewrite rev_involutive in E. congruence. }
  clear E.
  assert (HW : Forall (of_shape n m) (l ++ [z])).
  { rewrite ER in HR. apply Forall_app in HR as [H1 H2]. apply Forall_app. split.
    - rewrite Forall_forall in H1. apply Forall_forall. intros r Hr. eapply shape_imap, H1, in_map, Hr.
    - inversion H2; subst. constructor; [|constructor]. do 2 (apply shape_imap in H3). auto. }
  assert (Hxs : of_shape n m xs) by (apply shape_imap; auto).
  assert (HI : Forall (of_shape n m) IMF).
  { rewrite <- EW in HW. unfold W, with_residue in HW. destruct (forallb _ _); auto. apply Forall_app in HW. tauto. }
  intros i j Hi Hj F. cbv zeta.
  apply Forall_app in HW as [Hl Hz]. inversion Hz as [|? ? Hz' _]; subst; clear Hz.
  set (p := map (fun r => grey r i j) l). set (q := grey z i j).
  assert (EP : map (fun r => grey r i j) W = p ++ [q]) by (rewrite EW, map_app; reflexivity).
  set (C := map (fun a => nmul a s) p). set (Cn := nmul q s). set (Z := nadd Cn lo).
  assert (EO : map (fun r => grey r i j) (map (imap (fun y => nmul y s)) l ++ [imap (fun y => nadd y lo) (imap (fun y => nmul y s) z)]) = C ++ [Z]).
  { rewrite map_app. cbn [map]. f_equal.
    - unfold C, p. rewrite !map_map. apply map_ext_in. intros r Hr. apply (grey_imap n m); auto. apply (proj1 (Forall_forall _ _) Hl); auto.
    - f_equal. rewrite (grey_imap n m); auto; [|apply shape_imap; auto]. unfold Z, Cn. f_equal. apply (grey_imap n m); auto. }
  set (rows := map _ l ++ _) in *.
  assert (FO : forall a, In a (C ++ [Z]) -> is_finite a = true).
  { rewrite <- EO. intros a Ha. apply in_map_iff in Ha as (r & <- & Hr). apply F; auto. }
  assert (FZ : is_finite Z = true) by (apply FO, in_app_iff; right; left; auto).
  destruct (plus_finite _ _ FZ) as [FCn Flo]. destruct (mult_finite _ _ FCn) as [Fq Fs].
  assert (FCs : forall a, In a (p ++ [q]) -> is_finite (nmul a s) = true).
  { intros a Ha. apply in_app_iff in Ha as [Ha|[<-|[]]]; [|auto]. apply FO, in_app_iff. left. apply (in_map (fun a => nmul a s)); auto. }
  destruct (residue_error n m xs IMF i j Hxs HI Hi Hj) as [Fx RE].
  { fold W. rewrite EP. intros a Ha. apply FCs, mult_finite in Ha. tauto. }
  fold W in RE. rewrite EP in RE. set (x := grey xs i j) in *.
  assert (Ex : x = ndiv (nsub (grey image i j) lo) s) by (apply (grey_imap n m (fun y => ndiv (nsub y lo) s)); auto).
  rewrite Ex in Fx. destruct (div_finite _ _ Fx Fs) as [Fd Hs0]. pose proof (quotient_error _ _ Fx Fs) as Q. rewrite <- Ex in Q.
  pose proof (minus_error _ _ Fd) as D. set (d := B2R (nsub (grey image i j) lo)) in *. set (y := B2R (grey image i j)) in *.
  set (M := Nat.pred (length (p ++ [q]))) in *.
  assert (EN : length rows = S M).
  { unfold rows, M, p. rewrite !app_length, !map_length. cbn. lia. }
  pose proof (scaled_error x s (p ++ [q]) M tol64 FCs) as SE. cbv beta zeta in SE.
  assert (Ht : 0 <= tol64) by (unfold tol64; lra). specialize (SE RE Ht).
  rewrite map_app in SE. cbn [map] in SE. fold C Cn in SE. rewrite app_length in SE. cbn [length] in SE.
  assert (EL : (length p + 1)%nat = length rows) by (unfold rows, p; rewrite app_length, !map_length; cbn; lia).
  rewrite EL in SE. rewrite !map_app, !rsum_app in SE. cbn [map rsum fold_right] in SE. rewrite !Rplus_0_r in SE.
  pose proof (plus_error_r _ _ FZ) as PE. fold Z in PE.
  assert (GS : grey_sum rows i j = rsum (map B2R C) + B2R Z).
  { unfold grey_sum. rewrite <- (map_map (fun r => grey r i j) B2R rows), EO, map_app, rsum_app. f_equal. apply Rplus_0_r. }
  assert (GZ : grey_size rows i j = rsum (map (fun a => Rabs (B2R a)) C) + Rabs (B2R Z)).
  { unfold grey_size. rewrite <- (map_map (fun r => grey r i j) (fun a => Rabs (B2R a)) rows), EO, map_app, rsum_app. f_equal. apply Rplus_0_r. }
  rewrite GS, GZ, EN. rewrite EN in SE.
  pose proof (size_pos C) as SC. cbv beta in SC. pose proof u53_pos as U. pose proof eta_pos as H0. pose proof (pow_ge1 M) as PW.
  change (rsum (map (fun x => Rabs (BinarySingleNaN.B2R x)) C)) with (rsum (map (fun a => Rabs (B2R a)) C)) in *.
  set (A := rsum (map (fun a => Rabs (B2R a)) C)) in *. set (B := rsum (map B2R C)) in *.
  pose proof (pos_INR (S M)) as PN. set (NN := INR (S M)) in *. change ((1 + u53) ^ S (S M)) with ((1 + u53) * ((1 + u53) * (1 + u53) ^ M)).
  change ((1 + u53) ^ S M) with ((1 + u53) * (1 + u53) ^ M) in *. set (w := (1 + u53) ^ M) in *.
  replace (y - (B + B2R Z)) with ((y - B2R lo - d) + (d - B2R x * B2R s) + (B2R x * B2R s - (B + B2R Cn)) + (B2R Cn + B2R lo - B2R Z)) by ring.
  assert (D1 : Rabs (y - B2R lo - d) <= u53 * Rabs (y - B2R lo)).
  { replace (y - B2R lo - d) with (- (d - (y - B2R lo))) by ring. rewrite Rabs_Ropp. exact D. }
  assert (D2 : Rabs d <= (1 + u53) * Rabs (y - B2R lo)).
  { replace d with ((d - (y - B2R lo)) + (y - B2R lo)) by ring. eapply Rle_trans; [apply Rabs_triang|]. lra. }
  assert (P1 : Rabs (B2R Cn + B2R lo - B2R Z) <= u53 * Rabs (B2R Z)).
  { replace (B2R Cn + B2R lo - B2R Z) with (- (B2R Z - (B2R Cn + B2R lo))) by ring. rewrite Rabs_Ropp. exact PE. }
  assert (P2 : Rabs (B2R Cn) <= (1 + u53) * Rabs (B2R Z) + Rabs (B2R lo)).
  { replace (B2R Cn) with ((B2R Z + (B2R Cn + B2R lo - B2R Z)) + - B2R lo) by ring. eapply Rle_trans; [apply Rabs_triang|].
    rewrite Rabs_Ropp. apply Rplus_le_compat_r. eapply Rle_trans; [apply Rabs_triang|]. lra. }
  assert (TR : forall a b c e, Rabs (a + b + c + e) <= Rabs a + Rabs b + Rabs c + Rabs e).
  { intros a b cc e. pose proof (Rabs_triang (a + b + cc) e). pose proof (Rabs_triang (a + b) cc). pose proof (Rabs_triang a b). lra. }
  eapply Rle_trans; [apply TR|].
  pose proof (Rabs_pos (B2R lo)) as A1. pose proof (Rabs_pos (B2R Z)) as A2. pose proof (Rabs_pos (y - B2R lo)) as A3. pose proof (Rabs_pos (B2R s)) as A4.
  assert (Q' : Rabs (d - B2R x * B2R s) <= u53 * ((1 + u53) * Rabs (y - B2R lo)) + eta * Rabs (B2R s)).
  { eapply Rle_trans; [exact Q|]. apply Rplus_le_compat_r. apply Rmult_le_compat_l; lra. }
  set (e := (1 + u53) * w - 1) in *. assert (He : 0 <= e) by (unfold e; nra).
  assert (S1 : e * (A + Rabs (B2R Cn)) <= e * (A + ((1 + u53) * Rabs (B2R Z) + Rabs (B2R lo)))) by (apply Rmult_le_compat_l; lra).
  assert (S2 : eta * (NN * w) <= eta * (NN * ((1 + u53) * w))).
  { apply Rmult_le_compat_l; [lra|]. apply Rmult_le_compat_l; nra. }
  replace ((1 + u53) * ((1 + u53) * w) - 1) with (e + u53 * (1 + e)) by (unfold e; ring).
  assert (S3 : e * (A + ((1 + u53) * Rabs (B2R Z) + Rabs (B2R lo))) + u53 * Rabs (B2R Z)
               <= (e + u53 * (1 + e)) * (A + Rabs (B2R Z) + Rabs (B2R lo))).
  { assert (0 <= u53 * (1 + e)) by (apply Rmult_le_pos; lra).
    assert (0 <= u53 * (1 + e) * A) by (apply Rmult_le_pos; lra).
    assert (0 <= u53 * (1 + e) * Rabs (B2R lo)) by (apply Rmult_le_pos; lra). nra. }
  assert (SE2 : Rabs (B2R x * B2R s - (B + B2R Cn)) <= e * (A + Rabs (B2R Cn)) + tol64 * Rabs (B2R s) + eta * (NN * w)) by exact SE. lra.
Qed.
Close Scope R_scope.

(** ** The rows EMD returns *)
Open Scope R_scope.
Lemma finish_float (S : list f64) IMF ext i : shaped (length S) IMF -> (i < length S)%nat ->
  let o := emd_finish S IMF ext in (forall r, In r (out o) -> finite (nth i r n0)) ->
  Rabs (B2R (nth i S n0) - real_sum (out o) i) <= ((1 + u53) ^ Nat.pred (length (out o)) - 1) * real_size (out o) i + tol64.
Proof.
  intros HI Hi o F.
  assert (HM : shaped (length S) (imfs o)).
  { unfold o, emd_finish. cbn [imfs]. destruct (ext <=? 2); auto. destruct IMF as [|a IMF']; [constructor|].
    assert (N : a :: IMF' <> []) by discriminate. pose proof (app_removelast_last [] N) as E. rewrite E in HI. apply Forall_app in HI. tauto. }
  assert (LS : length (sum_rows (length S) (imfs o)) = length S) by (apply sum_rows_length; apply Forall_forall; exact HM).
  assert (Lr : length (residue o) = length S) by (apply vsub_length; auto).
  assert (Er : nth i (residue o) n0 = nsub (nth i S n0) (library_sum (imfs o) i)).
  { rewrite <- (sum_rows_at (imfs o) (length S)) by auto. apply nth_map2; [exact Hi|exact (eq_ind_r (fun k => (i < k)%nat) Hi LS)]. }
  assert (EO : out o = if allclose0 (residue o) then imfs o else imfs o ++ [residue o]) by reflexivity.
  clearbody o.
  assert (Ht : 0 < tol64) by (unfold tol64; lra).
  set (p := map (fun r => nth i r n0) (imfs o)). change (library_sum (imfs o) i) with (fold_left nadd p n0) in Er.
  rewrite EO in F |- *. destruct (allclose0 (residue o)) eqn:Ea.
  - unfold allclose0 in Ea. rewrite forallb_forall in Ea.
    assert (Hin : In (nth i (residue o) n0) (residue o)) by (apply nth_In; congruence).
    specialize (Ea _ Hin). rewrite Er in Ea. apply leb_finite in Ea as [Fr Hr]; [|reflexivity].
    destruct (minus_finite _ _ Fr) as [Fx Fl].
    pose proof (minus_error_r _ _ Fr) as H1. pose proof (sum_error p Fl) as H2. pose proof tol_bound as H3. pose proof u53_pos as H4.
    set (r := B2R (nsub (nth i S n0) (fold_left nadd p n0))) in *. set (L := B2R (fold_left nadd p n0)) in *.
    set (y := B2R (nth i S n0)) in *.
    assert (G : Rabs (y - rsum (map B2R p)) <= ((1 + u53) ^ Nat.pred (length p) - 1) * rsum (map (fun a => Rabs (B2R a)) p) + tol64).
    { replace (y - rsum (map B2R p)) with ((L - rsum (map B2R p)) + (r - (r - (y - L)))) by ring.
      eapply Rle_trans; [apply Rabs_triang|].
      assert (Rabs (r - (r - (y - L))) <= Rabs r + Rabs (r - (y - L))).
      { unfold Rminus at 1. eapply Rle_trans; [apply Rabs_triang|]. rewrite Rabs_Ropp. lra. }
      pose proof (Rabs_pos r). assert (u53 * Rabs r <= u53 * B2R (nlit 1 (10 ^ 8) : f64)) by (apply Rmult_le_compat_l; lra).
      change (Rabs (L - rsum (map B2R p)) <= ((1 + u53) ^ Nat.pred (length p) - 1) * rsum (map (fun a => Rabs (B2R a)) p)) in H2. lra. }
    unfold p in G. rewrite map_length, !map_map in G. exact G.
  - assert (Fr : is_finite (nsub (nth i S n0) (fold_left nadd p n0)) = true).
    { rewrite <- Er. apply F, in_app_iff. right. left. auto. }
    pose proof (rest_error (nth i S n0) p Fr) as H1. cbv beta zeta in H1. rewrite <- Er in H1.
    assert (Eq : p ++ [nth i (residue o) n0] = map (fun r => nth i r n0) (imfs o ++ [residue o])) by (unfold p; rewrite map_app; reflexivity).
    rewrite Eq, !map_map in H1. rewrite app_length, Nat.add_1_r. cbn [length Nat.pred].
    assert (G : Rabs (B2R (nth i S n0) - real_sum (imfs o ++ [residue o]) i) <=
      ((1 + u53) ^ length (imfs o) - 1) * real_size (imfs o ++ [residue o]) i).
    { unfold p in H1. rewrite map_length in H1. exact H1. }
    lra.
Qed.
Lemma emd_float spl fuel c (S : list f64) T k o i : emd spl fuel c S T k = Ok o -> (i < length S)%nat ->
  (forall r, In r (out o) -> finite (nth i r n0)) ->
  Rabs (B2R (nth i S n0) - real_sum (out o) i) <= ((1 + u53) ^ Nat.pred (length (out o)) - 1) * real_size (out o) i + tol64.
Proof.
  intros E Hi. apply emd_ok in E as (t & IMF & ext & _ & _ & EL & ->). apply finish_float; auto.
  refine (emd_loop_shape _ _ _ _ _ _ _ _ _ _ _ EL). constructor.
Qed.
Lemma jit_float spl fuel strict c (S : list f64) T k M i : (2 <= length S)%nat -> jit_emd spl fuel strict c S T k = Ok M ->
  (i < length S)%nat -> (forall r, In r M -> finite (nth i r n0)) ->
  Rabs (B2R (nth i S n0) - real_sum M i) <= ((1 + u53) ^ Nat.pred (length M) - 1) * real_size M i + tol64.
Proof. intros HL E Hi. apply jit_emd_rows in E as (IMF & ext & HI & ->); auto. apply finish_float; auto. Qed.
Close Scope R_scope.
