(** * Props_Turn: property C81, turned images.

    [turned t n m x y] (TurnSpec.v): the image [y] is the image [x] of [n] rows and [m] columns upside down,
    mirrored left to right, rotated by half a turn, or transposed, as [t] says.  [alike R a b]: both raise the
    same exception, or both return and the results are related by [R]. *)
From Verif Require Import PyFacts QcFacts Spec Image ImageSpec ImageProofs ImageSift ImageFinal Recon TurnSpec Turn TurnBemd ImageDemo Demo.
From Coq Require Import QArith Qcanon Permutation.
Open Scope Z_scope.

(** ** C81 *)
(** EMD2D of a turned image is the turned decomposition, image by image, if the surface fit favours no
    direction. *)
Theorem C81_emd2d :
  forall t sbs c fuel n m x y k, fair_surface t sbs -> turned t n m x y ->
  alike (Forall2 (turned t n m)) (emd2d sbs c fuel x k) (emd2d sbs c fuel y k).
Proof. exact emd2d_turned. Qed.
Print Assumptions C81_emd2d.

(** The extrema of the turned image are the turned extrema. *)
Theorem C81_extrema :
  forall t n m x y mins maxs mins' maxs', turned t n m x y -> (0 < n)%nat -> (0 < m)%nat ->
  find_extrema2 x = (mins, maxs) -> find_extrema2 y = (mins', maxs') ->
  Permutation mins' (map (place t n m) mins) /\ Permutation maxs' (map (place t n m) maxs).
Proof.
  intros t n m x y mins maxs mins' maxs' E Hn Hm F F'. unfold find_extrema2 in F, F'. injection F as <- <-. injection F' as <- <-.
  split; apply peaks_turned; auto. apply turned_imap. auto.
Qed.
Print Assumptions C81_extrema.

(** BEMD of a square image: so it is for transposition and for half a turn. *)
Theorem C81_bemd :
  forall t, t = Transposed \/ t = HalfTurn ->
  forall n, (0 < n)%nat -> forall rec, rec_ok n n rec -> forall f, fair_rbf t f -> rbf_ok f ->
  forall c fuel x y k, turned t n n x y -> alike (Forall2 (turned t n n)) (bemd rec f c fuel x k) (bemd rec f c fuel y k).
Proof. intros t Ht n Hn rec Hrec f Hfair Hf. exact (bemd_turned t Ht n Hn rec Hrec f Hfair). Qed.
Print Assumptions C81_bemd.

(** But not for an image turned upside down: BEMD reads the value of an extremum in row r, column c at row
    c, column r. *)
Theorem C81_bemd_mirror_refuted :
  exists n rec f c fuel x y k rows rows', (0 < n)%nat /\ rec_ok n n rec /\ rbf_ok f /\ fair_rbf UpsideDown f /\ turned UpsideDown n n x y /\
    bemd rec f c fuel x k = Ok rows /\ bemd rec f c fuel y k = Ok rows' /\ length rows = length rows' /\
    ~ Forall2 (turned UpsideDown n n) rows rows'.
Proof.
  assert (G : match bemd recon near_rbf (cfg2_of 1 0 2) 6 hills 1, bemd recon near_rbf (cfg2_of 1 0 2) 6 (flipud hills) 1 with
              | Ok a, Ok b => Nat.eqb (length a) (length b) && negb (Qc_eqb (pixel (hd [] b) 3 0) (pixel (hd [] a) 0 0)) && Nat.ltb 0 (length a)
              | _, _ => false end = true) by (vm_compute; reflexivity).
  destruct (bemd recon near_rbf (cfg2_of 1 0 2) 6 hills 1) as [a|] eqn:Ea; [|discriminate G].
  destruct (bemd recon near_rbf (cfg2_of 1 0 2) 6 (flipud hills) 1) as [b|] eqn:Eb; [|discriminate G].
  apply andb_prop in G as [G G3]. apply andb_prop in G as [G1 G2]. apply Nat.eqb_eq in G1.
  assert (Hh : rect 4 4 hills) by (apply rect_dec; reflexivity).
  exists 4%nat, recon, near_rbf, (cfg2_of 1 0 2), 6%nat, hills, (flipud hills), 1, a, b. split; [auto|].
  split; [intros s x Hs Hx; apply recon_spec; auto with arith|]. split; [apply near_rbf_ok|]. split; [apply near_rbf_fair|]. split.
  { split; auto. split; [apply rect_flipud; auto|]. intros i j Hi Hj. cbn [place fst snd]. rewrite (pixel_flipud 4 4) by (auto; lia). f_equal. lia. }
  split; auto. split; auto. split; auto. intros F. destruct F as [|u v a b (_ & _ & F) _]; [discriminate G3|].
  specialize (F 0%nat 0%nat ltac:(lia) ltac:(lia)). cbn [place fst snd Nat.sub] in F. cbn [hd] in G2. rewrite F in G2.
  rewrite (proj2 (Qc_eqb_eq _ _) eq_refl) in G2. discriminate G2.
Qed.
Print Assumptions C81_bemd_mirror_refuted.

(** Non-vacuity: fits that favour no direction, and an image that is sifted. *)
Example near_is_fair : (forall t, fair_surface t near_surface) /\ (forall t, fair_rbf t near_rbf).
Proof. split; [exact near_surface_fair|exact near_rbf_fair]. Qed.
Example spikes_sifted :
  match emd2d near_surface (cfg2_of 1 0 1) 6 (spikes 1) 1 with
  | Ok [a; b] => Qc_eqb (pixel a 0 0) (pixel a 6 6) = false | _ => False end.
Proof. vm_compute. reflexivity. Qed.
Example hills_transposed : turned Transposed 4 4 hills (map qs [[5; 0; 1; 4]; [0; 2; 0; 1]; [1; 0; 6; 0]; [7; 1; 0; 3]]).
Proof.
  split; [apply rect_dec; reflexivity|]. split; [apply rect_dec; reflexivity|]. intros i j Hi Hj.
  do 4 (destruct i as [|i]; [do 4 (destruct j as [|j]; [vm_compute; reflexivity|]); lia|]). lia.
Qed.
