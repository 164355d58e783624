(** * ImageDemo: concrete surfaces and images for the examples and refutations. *)
From Verif Require Import PyFacts QcFacts Spec Image ImageSpec EmdExact ImageProofs ImageSift BemdProofs Recon ImageFinal Demo.
From Coq Require Import ZifyBool ZifyNat QArith Qcanon Sorting.Sorted.
Open Scope Z_scope.

(** The least-squares constant through the points, [share] times. *)
Definition level (share : Qc) (vs : list Qc) : Qc :=
  (share * (fold_right Qcplus 0 vs / Q2Qc (inject_Z (Z.of_nat (length vs)))))%Qc.
Definition flat_surface (share : Qc) : surface Qc := fun ps vs xi yi =>
  match vs with [] => Raise ValueError | _ => Ok (repeat (repeat (level share vs) (length yi)) (length xi)) end.
Definition flat_rbf (share : Qc) : rbf Qc := fun ps vs n m =>
  match vs with [] => Raise ValueError | _ => Ok (repeat (repeat (level share vs) n) m) end.
Lemma rect_repeat n m v : rect n m (repeat (repeat v m) n).
Proof. split; [apply repeat_length|]. apply Forall_forall. intros r I. apply repeat_spec in I. subst. apply repeat_length. Qed.
Lemma flat_surface_ok s : surface_ok (flat_surface s).
Proof. intros ps vs xi yi e. unfold flat_surface. destruct vs; intros [= <-]. apply rect_repeat. Qed.
Lemma flat_rbf_ok s : rbf_ok (flat_rbf s).
Proof. intros ps vs n m e. unfold flat_rbf. destruct vs; intros [= <-]. apply rect_repeat. Qed.
Lemma flat_surface_runs s ps vs xi yi : flat_surface s ps vs xi yi <> Raise OutOfFuel.
Proof. unfold flat_surface. destruct vs; discriminate. Qed.
Lemma flat_rbf_runs s ps vs n m : flat_rbf s ps vs n m <> Raise OutOfFuel.
Proof. unfold flat_rbf. destruct vs; discriminate. Qed.

Definition half : Qc := Q2Qc (1 # 2).
Definition cfg2_of (fixe fixeh maxit : Z) : cfg2 Qc := MkCfg2 (Q2Qc (1 # 100)) (Q2Qc (1 # 100)) fixe fixeh maxit.
(** Nine peaks of different heights on a dark ground. *)
Definition spikes (k : Z) : img := map (map (fun z => Q2Qc (k * z # 4)))
  [[0;0;0;0;0;0;0]; [0;4;0;2;0;3;0]; [0;0;0;0;0;0;0]; [0;2;0;4;0;1;0]; [0;0;0;0;0;0;0]; [0;3;0;1;0;4;0]; [0;0;0;0;0;0;0]].
Definition corner : img := map qs [[0; 0; 9]; [0; -3; 0]; [0; 0; 0]].
Definition hills : img := map qs [[5; 0; 1; 7]; [0; 2; 0; 1]; [1; 0; 6; 0]; [4; 1; 0; 3]].
Definition oblong : img := map qs [[5; 0; 7]; [0; 2; 0]; [1; 0; 6]; [4; 1; 0]].

Definition show (r : res (list img)) : res (list (list (list Q))) :=
  match r with Ok l => Ok (map (map (map this)) l) | Raise e => Raise e end.
Definition show1 (x : img) : list (list Q) := map (map this) x.
Lemma show1_eq (x y : img) : show1 x = show1 y -> x = y.
Proof.
  unfold show1. revert y. induction x as [|r x IH]; intros [|s y] E; try discriminate; auto. cbn [map] in E. injection E as E1 E2.
  f_equal; auto. clear - E1. revert s E1. induction r as [|a r IH]; intros [|b s] E; try discriminate; auto. cbn [map] in E.
  injection E as E1 E2. f_equal; auto. apply Qc_is_canon. rewrite E1. reflexivity.
Qed.
Lemma rect_dec n m (x : img) : (length x =? n)%nat && forallb (fun r => length r =? m)%nat x = true -> rect n m x.
Proof.
  rewrite andb_true_iff, Nat.eqb_eq, forallb_forall. intros [A B]. split; auto. apply Forall_forall. intros r I. apply Nat.eqb_eq. auto.
Qed.

(** The envelopes determine the sift. *)
Lemma sift_step n m x lo up e y : rect n m x -> rect n m lo -> rect n m up -> midway n m lo up e -> minus n m x e y ->
  y = isub x (half_of lo up).
Proof.
  intros Hx Hl Hu [Re Pe] [Ry Py]. assert (Rh : rect n m (half_of lo up)) by (apply rect_imap, rect_imap2; auto).
  apply (image_ext n m); auto; [apply rect_imap2; auto|]. intros i j Hi Hj. rewrite Py, Pe by auto.
  unfold isub. rewrite (pixel_imap2 n m) by auto. change nsub with Qcminus. f_equal.
  destruct (midway_half n m lo up Hl Hu) as [_ Ph]. rewrite Ph; auto.
Qed.
(** The textbook sift, to be compared with what the programs do. *)
Definition classic2 (sbs : surface Qc) (x : img) : res img :=
  let! (lo, up) := envelopes2 sbs x in Ok (isub x (half_of lo up)).
Lemma classic2_step sbs n m x lo up e y : surface_ok sbs -> (0 < n)%nat -> rect n m x ->
  spec2 sbs n m x lo up -> midway n m lo up e -> minus n m x e y -> classic2 sbs x = Ok y.
Proof.
  intros Hs Hn Hx E Md Mn. apply env2_doc in E; auto. unfold env2 in E. unfold classic2. rewrite E. cbn [bind].
  destruct (envelopes2_rect sbs n m x lo up Hs Hx Hn E). f_equal. symmetry. eapply sift_step; eauto.
Qed.
Definition classic_b (rec : reconstruction Qc) (f : rbf Qc) (x : img) : res img :=
  let! (lo, up) := envelopes_b f x (minima_positions rec x) (maxima_positions rec x) in Ok (isub x (half_of lo up)).
Lemma classic_b_step rec f n x lo up e y : rec_ok n n rec -> rbf_ok f -> (0 < n)%nat -> rect n n x ->
  spec_b f n x lo up -> midway n n lo up e -> minus n n x e y -> classic_b rec f x = Ok y.
Proof.
  intros Hr Hf Hn Hx E Md Mn. assert (E' := proj2 (env_b_doc rec f n x lo up Hr Hn Hx) E). unfold env_b in E'. unfold classic_b. rewrite E'. cbn [bind].
  destruct (envelopes_b_rect f n n x _ _ lo up Hf Hx Hn E'). f_equal. symmetry. eapply sift_step; eauto.
Qed.
Lemma recon_ok n m : (0 < n)%nat -> rec_ok n m recon.
Proof. intros Hn s x Hs Hx. apply recon_spec; auto. Qed.

(** ** A run that never ends *)
Definition dark_surface : surface Qc := fun _ _ xi yi => Ok (repeat (repeat 0%Qc (length yi)) (length xi)).
Lemma dark_surface_ok : surface_ok dark_surface.
Proof. intros ps vs xi yi e [= <-]. apply rect_repeat. Qed.
Lemma modes2_stuck n m (sift : img -> res (img * bool)) image xs max_imf : rect n m image -> rect n m xs ->
  max_imf <= 0 -> sift xs = Ok (xs, true) -> (forall r, blank n m r -> sift r = Ok (r, true)) ->
  iallclose rtol_default image xs = false ->
  forall fuel IMF, Forall (rect n m) IMF ->
    (IMF = [] \/ forall i j, (i < n)%nat -> (j < m)%nat -> stack_sum IMF i j = pixel xs i j) ->
    modes2 sift fuel image xs max_imf IMF = Raise OutOfFuel.
Proof.
  intros Hi Hx Hm S1 S2 NC. induction fuel as [|fuel IH]; intros IMF F C; cbn [modes2]; auto.
  destruct (isub_rest n m xs IMF Hx F) as [Rr Pr]. set (r := isub xs (isum xs IMF)) in *.
  assert (K : exists y, sift r = Ok (y, true) /\ rect n m y /\
    forall i j, (i < n)%nat -> (j < m)%nat -> (stack_sum IMF i j + pixel y i j = pixel xs i j)%Qc).
  { destruct C as [->|C].
    - exists xs. replace r with xs; [split; [auto|split; [auto|]]; intros; unfold stack_sum; cbn; ring|].
      apply (image_ext n m); auto. intros i j Hii Hj. rewrite Pr by auto. unfold stack_sum. cbn. ring.
    - assert (B : blank n m r). { split; auto. intros i j Hii Hj. rewrite Pr, C by auto. ring. }
      exists r. split; [apply S2; auto|]. split; auto. intros i j Hii Hj. rewrite Pr by auto. ring. }
  destruct K as (y & -> & Ry & Py). cbn [bind].
  assert (F' : Forall (rect n m) (IMF ++ [y])) by (apply Forall_app; auto).
  assert (Sum : isum image (IMF ++ [y]) = xs).
  { destruct (isum_spec n m image (IMF ++ [y]) Hi F') as [Rs Ps]. apply (image_ext n m); auto.
    intros i j Hii Hj. rewrite Ps by auto. rewrite stack_sum_app. unfold stack_sum at 2. cbn [map fold_right]. rewrite <- Py by auto. ring. }
  rewrite Sum, NC. replace (0 <? max_imf) with false by lia. cbn [orb andb]. apply IH; auto. right.
  intros i j Hii Hj. rewrite stack_sum_app. unfold stack_sum at 2. cbn [map fold_right]. rewrite <- Py by auto. ring.
Qed.
Lemma spikes_rect k : rect 7 7 (spikes k).
Proof. apply rect_dec. reflexivity. Qed.
Lemma emd2d_never_returns fuel : emd2d dark_surface (cfg2_of 1 0 100) fuel (spikes 2) (-1) = Raise OutOfFuel.
Proof.
  unfold emd2d.
  assert (E1 : np_min (concat (spikes 2)) = Ok 0%Qc).
  { destruct (np_min (concat (spikes 2))) as [v|e] eqn:E.
    - f_equal. apply Qc_is_canon. assert (K : match np_min (concat (spikes 2)) with Ok v => this v | _ => 7%Q end = 0%Q) by (vm_compute; reflexivity).
      rewrite E in K. rewrite K. reflexivity.
    - assert (K : match np_min (concat (spikes 2)) with Ok v => true | _ => false end = true) by (vm_compute; reflexivity). rewrite E in K. discriminate. }
  assert (E2 : np_max (concat (spikes 2)) = Ok (q 2)).
  { destruct (np_max (concat (spikes 2))) as [v|e] eqn:E.
    - f_equal. apply Qc_is_canon. assert (K : match np_max (concat (spikes 2)) with Ok v => this v | _ => 7%Q end = 2%Q) by (vm_compute; reflexivity).
      rewrite E in K. rewrite K. reflexivity.
    - assert (K : match np_max (concat (spikes 2)) with Ok v => true | _ => false end = true) by (vm_compute; reflexivity). rewrite E in K. discriminate. }
  rewrite E1, E2. cbn [bind]. replace (neqb (nsub (q 2) 0%Qc) n0) with false by (vm_compute; reflexivity).
  set (xs := imap _ (spikes 2)). set (sift := fun r => sift2 _ _ _ _ _ r _).
  assert (Run : forall x, rect 7 7 x -> (match sift x with Ok (y, true) => show1 y | _ => [] end) = show1 x -> sift x = Ok (x, true)).
  { intros x Hx K. destruct (sift x) as [[y [|]]|e].
    - apply show1_eq in K. subst. reflexivity.
    - exfalso. destruct x; [destruct Hx; discriminate|discriminate K].
    - exfalso. destruct x; [destruct Hx; discriminate|discriminate K]. }
  rewrite (modes2_stuck 7 7 sift (spikes 2) xs (-1)); auto using spikes_rect.
  - apply rect_imap, spikes_rect.
  - lia.
  - apply Run; [apply rect_imap, spikes_rect|]. vm_compute. reflexivity.
  - intros r [Rr Br]. assert (r = repeat (repeat 0%Qc 7) 7).
    { apply (image_ext 7 7); auto; [apply rect_repeat|]. intros i j Hi Hj. rewrite Br by auto.
      do 7 (destruct i as [|i]; [do 7 (destruct j as [|j]; [reflexivity|]); lia|]). lia. }
    subst r. apply Run; [apply rect_repeat|]. vm_compute. reflexivity.
Qed.
