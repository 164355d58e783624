(** * Props_Negative: property C99, photographic negatives of images.

    [odd_rbf] and [inverting] are defined in NegativeSpec.v, [negative], [rect] and [pixel] in
    ImageSpec.v. *)
From Verif Require Import Py PyFacts QcFacts Image ImageSpec ImageSift BemdProofs ImageDemo Recon TurnBemd NegativeSpec ImageNegative.
From Coq Require Import QArith Qcanon Lia.
Open Scope Z_scope.

(** ** C99 *)
(** BEMD of the negated image is the negated decomposition, under every stopping rule and limit, for
    every image and for any reconstruction; only the fit has to respond. *)
Theorem C99_bemd : forall rec f c fuel image max_imf rows, odd_rbf f ->
  bemd rec f c fuel image max_imf = Ok rows ->
  bemd rec f c fuel (negative image) max_imf = Ok (map negative rows).
Proof. intros rec f c fuel image max_imf rows Hf. exact (bemd_neg rec f c Hf fuel image max_imf rows). Qed.
Print Assumptions C99_bemd.

(** EMD2D with a fixed number of sifts: every component but the last is the negative of the one of the
    image.  (The last one carries the grey level, and the two runs need not stop together.) *)
Theorem C99_emd2d_fixe : forall sbs c fuel fuel' image max_imf (n m : nat) rows rows',
  surface_ok sbs -> inverting sbs -> (0 < n)%nat -> rect n m image ->
  FIXE2 c <> 0 -> 0 < MAX_ITERATION2 c ->
  emd2d sbs c fuel image max_imf = Ok rows ->
  emd2d sbs c fuel' (negative image) max_imf = Ok rows' ->
  forall i, (S i < length rows)%nat -> (S i < length rows')%nat -> nth i rows' [] = negative (nth i rows []).
Proof. intros sbs c fuel fuel' image max_imf n m rows rows'. exact (emd2d_neg sbs c fuel fuel' image max_imf n m rows rows'). Qed.
Print Assumptions C99_emd2d_fixe.

(** With the other stopping rules this fails: the image an EMD2D sift is compared with has had the last
    mean subtracted twice, which moves the grey level of the negative. *)
Theorem C99_emd2d_refuted : exists sbs c fuel image max_imf rows rows' i,
  surface_ok sbs /\ inverting sbs /\ rect 7 7 image /\ FIXE2 c = 0 /\ FIXE_H2 c = 0 /\ 0 < MAX_ITERATION2 c /\
  emd2d sbs c fuel image max_imf = Ok rows /\ emd2d sbs c fuel (negative image) max_imf = Ok rows' /\
  (S i < length rows)%nat /\ (S i < length rows')%nat /\ nth i rows' [] <> negative (nth i rows []).
Proof.
  assert (G : match emd2d corner_surface (MkCfg2 0%Qc 0%Qc 0 0 2) 3 glint 1, emd2d corner_surface (MkCfg2 0%Qc 0%Qc 0 0 2) 3 (negative glint) 1 with
    | Ok a, Ok b => (Nat.ltb 1 (length a) && Nat.ltb 1 (length b))%bool && negb (neqb (pixel (nth 0 b []) 3 3) (pixel (negative (nth 0 a [])) 3 3))
    | _, _ => false end = true) by (vm_compute; reflexivity).
  destruct (emd2d corner_surface (MkCfg2 0%Qc 0%Qc 0 0 2) 3 glint 1) as [a|] eqn:Ea; [|discriminate G].
  destruct (emd2d corner_surface (MkCfg2 0%Qc 0%Qc 0 0 2) 3 (negative glint) 1) as [b|] eqn:Eb; [|discriminate G].
  apply andb_prop in G as [G G3]. apply andb_prop in G as [G1 G2]. apply Nat.ltb_lt in G1, G2.
  exists corner_surface, (MkCfg2 0%Qc 0%Qc 0 0 2), 3%nat, glint, 1, a, b, 0%nat.
  split; [apply corner_surface_ok|]. split; [apply corner_surface_inverting|]. split; [split; [reflexivity|repeat constructor]|].
  split; [reflexivity|]. split; [reflexivity|]. split; [reflexivity|]. split; [auto|]. split; [auto|]. split; [lia|]. split; [lia|].
  intros E. rewrite E in G3. apply negb_true_iff in G3. num_qc. apply Qc_eqb_neq in G3. congruence.
Qed.
Print Assumptions C99_emd2d_refuted.

(** Cases that meet the hypotheses.  The last example shows why the grey level has to be left out. *)
Example C99_fits : odd_rbf near_rbf /\ inverting near_surface /\ surface_ok near_surface.
Proof. split; [exact near_rbf_odd|]. split; [exact near_surface_inverting|exact near_surface_ok]. Qed.
Example C99_bemd_nonvacuous : exists rows, bemd recon near_rbf (cfg2_of 1 0 2) 6 hills 1 = Ok rows /\ (2 <= length rows)%nat.
Proof.
  assert (G : match bemd recon near_rbf (cfg2_of 1 0 2) 6 hills 1 with Ok a => Nat.leb 2 (length a) | _ => false end = true) by (vm_compute; reflexivity).
  destruct (bemd recon near_rbf (cfg2_of 1 0 2) 6 hills 1) as [a|]; [|discriminate G]. exists a. split; auto. apply Nat.leb_le. exact G.
Qed.
Example C99_emd2d_nonvacuous : exists rows rows',
  emd2d corner_surface (cfg2_of 1 0 2) 3 glint 2 = Ok rows /\ emd2d corner_surface (cfg2_of 1 0 2) 3 (negative glint) 2 = Ok rows' /\
  length rows = 2%nat /\ length rows' = 3%nat /\ FIXE2 (cfg2_of 1 0 2) <> 0 /\ 0 < MAX_ITERATION2 (cfg2_of 1 0 2).
Proof.
  assert (G : match emd2d corner_surface (cfg2_of 1 0 2) 3 glint 2, emd2d corner_surface (cfg2_of 1 0 2) 3 (negative glint) 2 with
    | Ok a, Ok b => (Nat.eqb (length a) 2 && Nat.eqb (length b) 3)%bool | _, _ => false end = true) by (vm_compute; reflexivity).
  destruct (emd2d corner_surface (cfg2_of 1 0 2) 3 glint 2) as [a|]; [|discriminate G].
  destruct (emd2d corner_surface (cfg2_of 1 0 2) 3 (negative glint) 2) as [b|]; [|discriminate G].
  apply andb_prop in G as [G1 G2]. apply Nat.eqb_eq in G1, G2. exists a, b. repeat split; auto; discriminate.
Qed.
