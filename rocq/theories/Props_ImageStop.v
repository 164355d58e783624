(** * Props_ImageStop: when the image decompositions stop sifting (C63). *)
From Verif Require Import Spec Image ImageSpec ImageStopSpec ImageSift BemdProofs Recon ImageFinal ImageStop Demo ImageDemo.
From Coq Require Import QArith Qcanon.
Open Scope Z_scope.

(** ** C63: with FIXE = FIXE_H = 0 sifting stops at the first sift that is settled; with
    FIXE_H = h at the first sift that ends h consecutive settled ones, the very first sift not
    counted. *)
Theorem C63_emd2d_default : forall sbs c fuel image max_imf (n m : nat) rows,
  surface_ok sbs -> (0 < n)%nat -> rect n m image -> FIXE2 c = 0 -> FIXE_H2 c = 0 ->
  emd2d sbs c fuel image max_imf = Ok rows ->
  exists lo hi xs comps tail zero, darkest n m image lo /\ brightest n m image hi /\ (lo < hi)%Qc /\
    normalised n m lo hi image xs /\ in_units n m lo hi (comps ++ tail) rows /\ (length tail <= 1)%nat /\ blank n m zero /\
    peeled n m (fun r y => exists sifts, over_sifting n m (five_each n m) (spec2 sbs n m) r zero sifts y /\
      stops_by (settled_now (settled_2d n m (mean_thr c) (mse_thr c)))
        (length sifts = Z.to_nat (MAX_ITERATION2 c) \/ ~ five_each n m y) sifts) xs comps.
Proof. exact emd2d_stops_default. Qed.
Print Assumptions C63_emd2d_default.
Theorem C63_emd2d_fixe_h : forall sbs c fuel image max_imf (n m : nat) rows,
  surface_ok sbs -> (0 < n)%nat -> rect n m image -> FIXE2 c = 0 -> 0 < FIXE_H2 c ->
  emd2d sbs c fuel image max_imf = Ok rows ->
  exists lo hi xs comps tail zero, darkest n m image lo /\ brightest n m image hi /\ (lo < hi)%Qc /\
    normalised n m lo hi image xs /\ in_units n m lo hi (comps ++ tail) rows /\ (length tail <= 1)%nat /\ blank n m zero /\
    peeled n m (fun r y => exists sifts, over_sifting n m (five_each n m) (spec2 sbs n m) r zero sifts y /\
      stops_by (settled_for (settled_2d n m (mean_thr c) (mse_thr c)) (Z.to_nat (FIXE_H2 c)))
        (length sifts = Z.to_nat (MAX_ITERATION2 c) \/ ~ five_each n m y) sifts) xs comps.
Proof. exact emd2d_stops_h. Qed.
Print Assumptions C63_emd2d_fixe_h.
Theorem C63_bemd_default : forall rec f c fuel image max_imf (n : nat) rows,
  rec_ok n n rec -> rbf_ok f -> (0 < n)%nat -> rect n n image -> FIXE2 c = 0 -> FIXE_H2 c = 0 ->
  bemd rec f c fuel image max_imf = Ok rows ->
  exists comps tail, rows = comps ++ tail /\ (length tail <= 1)%nat /\
    peeled n n (fun r y => exists sifts, sifting n n (two_prominent n n) (spec_b f n) r sifts y /\
      stops_by (settled_now (settled_bi n n (mean_thr c)))
        (length sifts = Z.to_nat (MAX_ITERATION2 c) \/ ~ two_prominent n n y) sifts) image comps.
Proof. exact bemd_stops_default. Qed.
Print Assumptions C63_bemd_default.
Theorem C63_bemd_fixe_h : forall rec f c fuel image max_imf (n : nat) rows,
  rec_ok n n rec -> rbf_ok f -> (0 < n)%nat -> rect n n image -> FIXE2 c = 0 -> 0 < FIXE_H2 c ->
  bemd rec f c fuel image max_imf = Ok rows ->
  exists comps tail, rows = comps ++ tail /\ (length tail <= 1)%nat /\
    peeled n n (fun r y => exists sifts, sifting n n (two_prominent n n) (spec_b f n) r sifts y /\
      stops_by (settled_for (settled_bi n n (mean_thr c)) (Z.to_nat (FIXE_H2 c)))
        (length sifts = Z.to_nat (MAX_ITERATION2 c) \/ ~ two_prominent n n y) sifts) image comps.
Proof. exact bemd_stops_h. Qed.
Print Assumptions C63_bemd_fixe_h.
(** BEMD's mean-square threshold has no effect at all. *)
Theorem C63_bemd_mse_ignored : forall rec f fuel image max_imf mt t1 t2 fixe fixe_h maxit,
  bemd rec f (MkCfg2 t1 mt fixe fixe_h maxit) fuel image max_imf =
  bemd rec f (MkCfg2 t2 mt fixe fixe_h maxit) fuel image max_imf.
Proof. exact bemd_mse. Qed.
Print Assumptions C63_bemd_mse_ignored.
Definition done {X} (r : res (list X)) : bool := match r with Ok (_ :: _) => true | _ => false end.
Example C63_nonvacuous :
  surface_ok (flat_surface half) /\ rbf_ok (flat_rbf half) /\ rect 7 7 (spikes 3) /\ rec_ok 4 4 recon /\ rect 4 4 hills /\
  done (emd2d (flat_surface half) (cfg2_of 0 0 100) 5 (spikes 3) 2) = true /\
  done (emd2d (flat_surface half) (cfg2_of 0 3 100) 5 (spikes 3) 2) = true /\
  done (bemd recon (flat_rbf half) (cfg2_of 0 0 100) 5 hills 2) = true /\
  done (bemd recon (flat_rbf half) (cfg2_of 0 3 100) 5 hills 2) = true.
Proof.
  split; [apply flat_surface_ok|]. split; [apply flat_rbf_ok|]. split; [apply spikes_rect|]. split; [apply recon_ok; auto with arith|].
  split; [apply rect_dec; reflexivity|]. repeat split; vm_compute; reflexivity.
Qed.
