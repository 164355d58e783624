(** * Props_Image: properties C41-C43 and C58-C62, decompositions of images. *)
From Verif Require Import PyFacts QcFacts Spec Image ImageSpec EmdExact ImageProofs ImageSift BemdProofs Recon ImageFinal Demo ImageDemo.
From Coq Require Import QArith Qcanon Sorting.Sorted.
Open Scope Z_scope.

(** ** C41: prepare_image surrounds the image by its mirror images. *)
Theorem C41_tiling : forall (n m : nat) (x : list (list Qc)), rect n m x -> tiled n m x (prepare_image x).
Proof. exact prepare_image_spec. Qed.
Print Assumptions C41_tiling.
Example C41_nonvacuous : rect 2 3 (map qs [[1; 2; 3]; [4; 5; 6]]) /\
  prepare_image (map qs [[1; 2; 3]; [4; 5; 6]])
  = map qs [[6; 5; 4; 4; 5; 6; 6; 5; 4]; [3; 2; 1; 1; 2; 3; 3; 2; 1];
            [3; 2; 1; 1; 2; 3; 3; 2; 1]; [6; 5; 4; 4; 5; 6; 6; 5; 4];
            [6; 5; 4; 4; 5; 6; 6; 5; 4]; [3; 2; 1; 1; 2; 3; 3; 2; 1]].
Proof. split; [apply rect_dec; reflexivity|reflexivity]. Qed.

(** ** C42: the components of an image add up to the image. *)
Theorem C42_emd2d : forall sbs c fuel image max_imf (n m : nat) rows,
  surface_ok sbs -> (0 < n)%nat -> rect n m image ->
  emd2d sbs c fuel image max_imf = Ok rows ->
  exists lo hi, darkest n m image lo /\ brightest n m image hi /\ (lo < hi)%Qc /\
    Forall (rect n m) rows /\
    forall i j, (i < n)%nat -> (j < m)%nat -> within (tol * (hi - lo))%Qc (pixel image i j - stack_sum rows i j)%Qc.
Proof. exact emd2d_decomposes. Qed.
Print Assumptions C42_emd2d.
Theorem C42_bemd : forall rec f c fuel image max_imf (n : nat) rows,
  rbf_ok f -> (0 < n)%nat -> rect n n image ->
  bemd rec f c fuel image max_imf = Ok rows ->
  Forall (rect n n) rows /\
  forall i j, (i < n)%nat -> (j < n)%nat -> within tol (pixel image i j - stack_sum rows i j)%Qc.
Proof. exact bemd_decomposes. Qed.
Print Assumptions C42_bemd.
Example C42_nonvacuous :
  surface_ok (flat_surface half) /\ rbf_ok (flat_rbf half) /\ rect 7 7 (spikes 3) /\ rect 4 4 hills /\
  match emd2d (flat_surface half) (cfg2_of 2 0 100) 5 (spikes 3) 2 with Ok rows => length rows = 3%nat | _ => False end /\
  match bemd recon (flat_rbf half) (cfg2_of 2 0 100) 5 hills 2 with Ok rows => length rows = 3%nat | _ => False end.
Proof.
  split; [apply flat_surface_ok|]. split; [apply flat_rbf_ok|]. split; [apply spikes_rect|]. split; [apply rect_dec; reflexivity|].
  split; vm_compute; reflexivity.
Qed.

(** ** C43: how many sifts make a component. *)
Theorem C43_bemd_sifts : forall rec f c fuel image max_imf (n : nat) rows,
  rec_ok n n rec -> rbf_ok f -> (0 < n)%nat -> rect n n image ->
  bemd rec f c fuel image max_imf = Ok rows ->
  exists comps tail, rows = comps ++ tail /\ (length tail <= 1)%nat /\
    peeled n n (fun r y => exists j, sifted n n (two_prominent n n) (spec_b f n) j r y /\
      (j <= Z.to_nat (MAX_ITERATION2 c))%nat /\
      (FIXE2 c > 0 -> j = Nat.min (Z.to_nat (MAX_ITERATION2 c)) (Z.to_nat (FIXE2 c + 1)) \/
         (j < Nat.min (Z.to_nat (MAX_ITERATION2 c)) (Z.to_nat (FIXE2 c + 1)))%nat /\ ~ two_prominent n n y)) image comps.
Proof. exact bemd_sifts. Qed.
Print Assumptions C43_bemd_sifts.
Theorem C43_emd2d_sifts : forall sbs c fuel image max_imf (n m : nat) rows,
  surface_ok sbs -> (0 < n)%nat -> rect n m image ->
  emd2d sbs c fuel image max_imf = Ok rows ->
  exists lo hi xs comps tail zero, darkest n m image lo /\ brightest n m image hi /\ (lo < hi)%Qc /\
    normalised n m lo hi image xs /\ in_units n m lo hi (comps ++ tail) rows /\ (length tail <= 1)%nat /\ blank n m zero /\
    peeled n m (fun r y => exists j, over_sifted n m (five_each n m) (spec2 sbs n m) j r zero y /\
      (j <= Z.to_nat (MAX_ITERATION2 c))%nat /\
      (FIXE2 c > 0 -> j = Nat.min (Z.to_nat (MAX_ITERATION2 c)) (Z.to_nat (FIXE2 c + 1)) \/
         (j < Nat.min (Z.to_nat (MAX_ITERATION2 c)) (Z.to_nat (FIXE2 c + 1)))%nat /\ ~ five_each n m y)) xs comps.
Proof. exact emd2d_sifts. Qed.
Print Assumptions C43_emd2d_sifts.
(** FIXE=1 does not mean one sift (BEMD sifts twice). *)
Theorem C43_bemd_fixe_refuted : exists rec f c image rows, rec_ok 4 4 rec /\ rbf_ok f /\ rect 4 4 image /\
  FIXE2 c = 1 /\ MAX_ITERATION2 c = 5 /\ bemd rec f c 5 image 1 = Ok rows /\
  forall y, sifted 4 4 (two_prominent 4 4) (spec_b f 4) 1 image y -> hd [] rows <> y.
Proof.
  destruct (bemd recon (flat_rbf half) (cfg2_of 1 0 5) 5 hills 1) as [rows|e] eqn:E.
  2:{ exfalso. assert (K : match bemd recon (flat_rbf half) (cfg2_of 1 0 5) 5 hills 1 with Ok _ => true | _ => false end = true)
        by (vm_compute; reflexivity). rewrite E in K. discriminate. }
  assert (Hh : rect 4 4 hills) by (apply rect_dec; reflexivity).
  exists recon, (flat_rbf half), (cfg2_of 1 0 5), hills, rows. split; [apply recon_ok; auto with arith|].
  split; [apply flat_rbf_ok|]. split; [auto|]. split; [reflexivity|]. split; [reflexivity|]. split; [auto|].
  intros y S Ey. inversion S as [|k x lo up e y' z G V Md Mn S' E1 E2 E3]; subst. inversion S'; subst.
  assert (C := classic_b_step recon _ 4 hills lo up e _ (recon_ok 4 4 ltac:(auto with arith)) (flat_rbf_ok half) ltac:(auto with arith) Hh V Md Mn).
  assert (K : match bemd recon (flat_rbf half) (cfg2_of 1 0 5) 5 hills 1, classic_b recon (flat_rbf half) hills with
    | Ok r, Ok y => Qeq_bool (nth 0 (nth 0 (show1 (hd [] r)) []) 0%Q) (nth 0 (nth 0 (show1 y) []) 0%Q) | _, _ => true end = false) by (vm_compute; reflexivity).
  rewrite E, C in K. apply Qeq_bool_neq in K. apply K. reflexivity.
Qed.
Print Assumptions C43_bemd_fixe_refuted.
(** FIXE=1 in EMD2D is neither one sift nor two: each sift subtracts the previous mean again. *)
Theorem C43_emd2d_fixe_refuted : exists sbs c image rows, surface_ok sbs /\ rect 7 7 image /\
  darkest 7 7 image 0%Qc /\ brightest 7 7 image 1%Qc /\
  FIXE2 c = 1 /\ MAX_ITERATION2 c = 5 /\ emd2d sbs c 5 image 1 = Ok rows /\
  forall k y, (k <= 2)%nat -> sifted 7 7 (five_each 7 7) (spec2 sbs 7 7) k image y -> hd [] rows <> y.
Proof.
  destruct (emd2d (flat_surface half) (cfg2_of 1 0 5) 5 (spikes 1) 1) as [rows|e] eqn:E.
  2:{ exfalso. assert (K : match emd2d (flat_surface half) (cfg2_of 1 0 5) 5 (spikes 1) 1 with Ok _ => true | _ => false end = true)
        by (vm_compute; reflexivity). rewrite E in K. discriminate. }
  assert (Hh := spikes_rect 1).
  assert (H7 : (0 < 7)%nat) by auto with arith.
  assert (All : forall P : Qc -> bool, forallb (forallb P) (spikes 1) = true -> forall i j, (i < 7)%nat -> (j < 7)%nat -> P (pixel (spikes 1) i j) = true).
  { intros P K i j Hi Hj. rewrite forallb_forall in K. unfold pixel.
    assert (I : In (nth i (spikes 1) []) (spikes 1)) by (apply nth_In; exact Hi).
    specialize (K _ I). rewrite forallb_forall in K. apply K. apply nth_In. rewrite (rect_row 7 7); auto. }
  exists (flat_surface half), (cfg2_of 1 0 5), (spikes 1), rows. split; [apply flat_surface_ok|]. split; [auto|].
  split. { split; [exists 0%nat, 0%nat; split; [auto with arith|apply Qc_is_canon; reflexivity]|].
    intros i j Hi Hj. apply Qc_leb_le. apply (All (Qc_leb 0%Qc)); auto. }
  split. { split; [exists 1%nat, 1%nat; split; [auto with arith|apply Qc_is_canon; reflexivity]|].
    intros i j Hi Hj. apply Qc_leb_le. apply (All (fun v => Qc_leb v 1%Qc)); auto. }
  split; [reflexivity|]. split; [reflexivity|]. split; [auto|].
  set (first := match emd2d (flat_surface half) (cfg2_of 1 0 5) 5 (spikes 1) 1 with Ok r => nth 0 (nth 0 (show1 (hd [] r)) []) 0%Q | _ => 0%Q end).
  assert (F0 : Qeq_bool first (nth 0 (nth 0 (show1 (spikes 1)) []) 0%Q) = false) by (vm_compute; reflexivity).
  assert (F1 : match classic2 (flat_surface half) (spikes 1) with Ok y => Qeq_bool first (nth 0 (nth 0 (show1 y) []) 0%Q) | _ => false end = false)
    by (vm_compute; reflexivity).
  assert (F2 : match classic2 (flat_surface half) (spikes 1) with
    | Ok y => match classic2 (flat_surface half) y with Ok y => Qeq_bool first (nth 0 (nth 0 (show1 y) []) 0%Q) | _ => false end | _ => false end = false)
    by (vm_compute; reflexivity).
  unfold first in F0, F1, F2. rewrite E in F0, F1, F2. clear first.
  intros k y Hk S Ey.
  assert (Inv : forall k x z, rect 7 7 x -> sifted 7 7 (five_each 7 7) (spec2 (flat_surface half) 7 7) k x z ->
    match k with O => z = x | Datatypes.S k => exists y, classic2 (flat_surface half) x = Ok y /\ rect 7 7 y /\ sifted 7 7 (five_each 7 7) (spec2 (flat_surface half) 7 7) k y z end).
  { intros k' x z Hx S'. destruct S' as [|k' x lo up e y' z G V Md Mn S']; auto.
    exists y'. split; [|split; [apply Mn|auto]]. eapply classic2_step; eauto using flat_surface_ok. }
  destruct k as [|[|[|k]]]; [| | |lia].
  - apply Inv in S; auto. apply Qeq_bool_neq in F0. apply F0. rewrite Ey, S. reflexivity.
  - apply Inv in S; auto. destruct S as (y1 & C1 & R1 & S). apply Inv in S; auto.
    rewrite C1 in F1. apply Qeq_bool_neq in F1. apply F1. rewrite Ey, S. reflexivity.
  - apply Inv in S; auto. destruct S as (y1 & C1 & R1 & S). apply Inv in S; auto. destruct S as (y2 & C2 & R2 & S). apply Inv in S; auto.
    rewrite C1, C2 in F2. apply Qeq_bool_neq in F2. apply F2. rewrite Ey, S. reflexivity.
Qed.
Print Assumptions C43_emd2d_fixe_refuted.

(** ** C58: find_extrema of EMD2D lists exactly the interior local extrema, in reading order. *)
Theorem C58_find_extrema : forall (n m : nat) (x : list (list Qc)), rect n m x -> (0 < n)%nat ->
  exists mins maxs, find_extrema2 x = (mins, maxs) /\
    StronglySorted before mins /\ StronglySorted before maxs /\
    (forall i j, In (i, j) mins <-> local_min n m x i j) /\
    (forall i j, In (i, j) maxs <-> local_max n m x i j).
Proof. exact find_extrema2_spec. Qed.
Print Assumptions C58_find_extrema.
Example C58_nonvacuous : rect 4 4 hills /\
  find_extrema2 hills = ([(1, 2); (2, 1)], [(2, 2)])%nat.
Proof. split; [apply rect_dec; reflexivity|vm_compute; reflexivity]. Qed.

(** ** C59: the values BEMD hands to its surface fit. *)
Theorem C59_envelopes : forall rec f (n : nat) x lower upper, rec_ok n n rec -> (0 < n)%nat -> rect n n x ->
  envelopes_b f x (minima_positions rec x) (maxima_positions rec x) = Ok (lower, upper) <->
  envelopes_bi n n at_transposed (fun ps vs e => f ps vs n n = Ok e) x lower upper.
Proof. exact env_b_doc. Qed.
Print Assumptions C59_envelopes.
(** The transposition is harmless for images that equal their transpose. *)
Theorem C59_right_values_symmetric : forall rec f (n : nat) x lower upper, rec_ok n n rec -> (0 < n)%nat -> rect n n x ->
  self_transposed n x ->
  envelopes_b f x (minima_positions rec x) (maxima_positions rec x) = Ok (lower, upper) <->
  envelopes_bi n n at_pixel (fun ps vs e => f ps vs n n = Ok e) x lower upper.
Proof.
  exact (fun rec f n x lower upper Hr Hn Hx Sy =>
    iff_trans (env_b_doc rec f n x lower upper Hr Hn Hx) (symmetric_reads n _ x lower upper Sy)).
Qed.
Print Assumptions C59_right_values_symmetric.
Theorem C59_right_values_refuted : exists rec f x lower upper, rec_ok 3 3 rec /\ rbf_ok f /\ rect 3 3 x /\
  envelopes_b f x (minima_positions rec x) (maxima_positions rec x) = Ok (lower, upper) /\
  ~ envelopes_bi 3 3 at_pixel (fun ps vs e => f ps vs 3%nat 3%nat = Ok e) x lower upper.
Proof.
  assert (Hc : rect 3 3 corner) by (apply rect_dec; reflexivity).
  assert (Hr : rec_ok 3 3 recon) by (apply recon_ok; auto with arith).
  destruct (envelopes_b (flat_rbf 1%Qc) corner (minima_positions recon corner) (maxima_positions recon corner)) as [[lower upper]|e] eqn:E.
  2:{ exfalso. assert (K : match envelopes_b (flat_rbf 1%Qc) corner (minima_positions recon corner) (maxima_positions recon corner) with Ok _ => true | _ => false end = true)
        by (vm_compute; reflexivity). rewrite E in K. discriminate. }
  exists recon, (flat_rbf 1%Qc), corner, lower, upper. split; [auto|]. split; [apply flat_rbf_ok|]. split; [auto|]. split; [auto|].
  intros (mins & maxs & L1 & L2 & F1 & F2).
  assert (maxs = map swap (maxima_positions recon corner)) by (eapply listed_unique; [exact L2|]; apply (maxs_listed recon 3 3 Hr); auto with arith).
  subst maxs.
  assert (K : match envelopes_b (flat_rbf 1%Qc) corner (minima_positions recon corner) (maxima_positions recon corner),
      flat_rbf 1%Qc (map swap (map swap (maxima_positions recon corner))) (map (at_pixel corner) (map swap (maxima_positions recon corner))) 3%nat 3%nat with
    | Ok (_, u), Ok v => Qeq_bool (nth 0 (nth 0 (show1 u) []) 0%Q) (nth 0 (nth 0 (show1 v) []) 0%Q) | _, _ => false end = false) by (vm_compute; reflexivity).
  rewrite E, F2 in K. apply Qeq_bool_neq in K. apply K. reflexivity.
Qed.
Print Assumptions C59_right_values_refuted.
(** Images with more rows than columns, or fewer, are not decomposed at all. *)
Theorem C59_oblong_fails : forall rec f c fuel image max_imf (n m : nat),
  rec_ok n m rec -> rbf_ok f -> (2 <= n)%nat -> (2 <= m)%nat -> n <> m ->
  rect n m image -> two_prominent n m image -> 0 < MAX_ITERATION2 c -> (0 < fuel)%nat ->
  exists e, bemd rec f c fuel image max_imf = Raise e.
Proof. exact bemd_oblong. Qed.
Print Assumptions C59_oblong_fails.
Example C59_nonvacuous : rec_ok 4 3 recon /\ rect 4 3 oblong /\ two_prominent 4 3 oblong /\
  bemd recon (flat_rbf half) (cfg2_of 0 0 100) 9 oblong (-1) = Raise IndexError /\
  self_transposed 3 (map qs [[0; 4; 1]; [4; -5; 2]; [1; 2; 8]]).
Proof.
  assert (Hr : rec_ok 4 3 recon) by (apply recon_ok; auto with arith).
  assert (Ho : rect 4 3 oblong) by (apply rect_dec; reflexivity).
  split; [auto|]. split; [auto|]. split.
  { apply (two_each_doc recon 4 3 Hr ltac:(auto with arith) oblong Ho). unfold two_each.
    assert (K : (2 <=? length (minima_positions recon oblong))%nat && (2 <=? length (maxima_positions recon oblong))%nat = true) by (vm_compute; reflexivity).
    apply andb_true_iff in K. rewrite !Nat.leb_le in K. exact K. }
  split; [vm_compute; reflexivity|].
  intros i j Hi Hj. do 3 (destruct i as [|i]; [do 3 (destruct j as [|j]; [reflexivity|]); lia|]). lia.
Qed.

(** ** C60: BEMD's extrema are those of prominence one grey level. *)
Theorem C60_positions : forall rec (n m : nat) x, rec_ok n m rec -> (0 < n)%nat -> rect n m x ->
  listed (prominent n m (negative x)) (map swap (minima_positions rec x)) /\
  listed (prominent n m x) (map swap (maxima_positions rec x)).
Proof. exact positions_prominent. Qed.
Print Assumptions C60_positions.
(** An image whose grey levels differ by less than 1 is all maxima and all minima. *)
Theorem C60_low_range : forall (n m : nat) x, rect n m x ->
  (forall i j a b, (i < n)%nat -> (j < m)%nat -> (a < n)%nat -> (b < m)%nat -> (pixel x i j - pixel x a b < 1)%Qc) ->
  forall i j, (i < n)%nat -> (j < m)%nat -> prominent n m x i j /\ prominent n m (negative x) i j.
Proof. exact low_range_all. Qed.
Print Assumptions C60_low_range.
Example C60_nonvacuous : rec_ok 4 4 recon /\ rect 4 4 hills /\
  map swap (maxima_positions recon hills) = [(0, 0); (0, 3); (2, 2); (3, 0)]%nat /\
  length (maxima_positions recon (map (map (fun v => (v / q 100)%Qc)) hills)) = 16%nat.
Proof. split; [apply recon_ok; auto with arith|]. split; [apply rect_dec; reflexivity|]. split; vm_compute; reflexivity. Qed.

(** ** C61: the limit on components holds and makes the run end. *)
Theorem C61_emd2d_limit : forall sbs c fuel image max_imf (n m : nat) rows,
  surface_ok sbs -> (0 < n)%nat -> rect n m image -> 0 < max_imf ->
  emd2d sbs c fuel image max_imf = Ok rows -> 1 <= zlen rows <= max_imf + 1.
Proof. exact emd2d_limit. Qed.
Print Assumptions C61_emd2d_limit.
Theorem C61_bemd_limit : forall rec f c fuel image max_imf (n : nat) rows,
  rbf_ok f -> (0 < n)%nat -> rect n n image -> 0 < max_imf ->
  bemd rec f c fuel image max_imf = Ok rows -> 1 <= zlen rows <= max_imf + 1.
Proof. exact bemd_limit. Qed.
Print Assumptions C61_bemd_limit.
Theorem C61_emd2d_ends : forall sbs c fuel image max_imf,
  (forall ps vs xi yi, sbs ps vs xi yi <> Raise OutOfFuel) ->
  0 < max_imf -> (Z.to_nat max_imf <= fuel)%nat -> emd2d sbs c fuel image max_imf <> Raise OutOfFuel.
Proof. exact emd2d_total. Qed.
Print Assumptions C61_emd2d_ends.
Theorem C61_bemd_ends : forall rec f c fuel image max_imf,
  (forall ps vs n m, f ps vs n m <> Raise OutOfFuel) ->
  0 < max_imf -> (Z.to_nat max_imf <= fuel)%nat -> bemd rec f c fuel image max_imf <> Raise OutOfFuel.
Proof. exact bemd_total. Qed.
Print Assumptions C61_bemd_ends.
(** Without a limit EMD2D need not return, whatever the number of passes. *)
Theorem C61_unlimited_ends_refuted : exists sbs c image, surface_ok sbs /\ rect 7 7 image /\
  forall fuel, emd2d sbs c fuel image (-1) = Raise OutOfFuel.
Proof.
  exact (ex_intro _ dark_surface (ex_intro _ (cfg2_of 1 0 100) (ex_intro _ (spikes 2)
    (conj dark_surface_ok (conj (spikes_rect 2) emd2d_never_returns))))).
Qed.
Print Assumptions C61_unlimited_ends_refuted.
Example C61_nonvacuous :
  match emd2d (flat_surface half) (cfg2_of 0 0 100) 2 (spikes 3) 2 with Ok rows => length rows = 3%nat | _ => False end /\
  match bemd recon (flat_rbf half) (cfg2_of 0 0 100) 2 hills 2 with Ok rows => length rows = 3%nat | _ => False end.
Proof. split; vm_compute; reflexivity. Qed.

(** ** C62: EMD2D cannot normalise an image of one grey level: the division by its range fails
    (NumPy: NaN everywhere). *)
Theorem C62_constant : forall sbs c fuel image max_imf (n m : nat) v, (0 < n)%nat -> (0 < m)%nat -> rect n m image ->
  (forall i j, (i < n)%nat -> (j < m)%nat -> pixel image i j = v) ->
  emd2d sbs c fuel image max_imf = Raise ZeroDivisionError.
Proof. exact emd2d_constant. Qed.
Print Assumptions C62_constant.
Example C62_nonvacuous : rect 2 3 (repeat (repeat (q 5) 3) 2) /\
  forall i j, (i < 2)%nat -> (j < 3)%nat -> pixel (repeat (repeat (q 5) 3) 2) i j = q 5.
Proof.
  split; [apply rect_repeat|]. intros i j Hi Hj.
  do 2 (destruct i as [|i]; [do 3 (destruct j as [|j]; [reflexivity|]); lia|]). lia.
Qed.
