(** * Props_Limit: property C78, what a limit on the number of components cuts off.

    [looser k k'] (Limit.v): the limit [k'] allows at least as many components as [k >= 1]; 0 and
    negative numbers mean no limit.  The arithmetic is arbitrary. *)
From Verif Require Import PyFacts QcFacts Emd Image Ceemdan Matlab Limit Demo ImageDemo MatlabDemo Recon Props_Eemd Props_Ceemdan.
From Coq Require Import QArith Qcanon.
From Coq Require Import String List.
Import ListNotations.
Open Scope Z_scope.

(** ** C78 *)
(** EMD with a fixed number of sifts: with the limit [k] the IMFs are the first [k] of those found with
    a looser limit. *)
Theorem C78_emd_fixe :
  forall A (N : Num A) (spl : spline_oracle A) fuel c S T k k' o', looser k k' -> FIXE c <> 0 -> 1 < MAX_ITERATION c ->
  emd spl fuel c S T k' = Ok o' ->
  exists o, emd spl fuel c S T k = Ok o /\ imfs o = firstn (Z.to_nat k) (imfs o').
Proof. exact @emd_limit_fixe. Qed.
Print Assumptions C78_emd_fixe.

(** For the other stopping rules: the same, or the last of the [k] is missing. *)
Theorem C78_emd :
  forall A (N : Num A) (spl : spline_oracle A) fuel c S T k k' o', looser k k' -> emd spl fuel c S T k' = Ok o' ->
  exists o, emd spl fuel c S T k = Ok o /\
    (o = o' \/ k <= zlen (imfs o') /\
       (imfs o = firstn (Z.to_nat k) (imfs o') \/ imfs o = firstn (Z.to_nat (k - 1)) (imfs o'))).
Proof. exact @emd_limit. Qed.
Print Assumptions C78_emd.

(** It can be missing: with the default stopping rule, asking for one IMF gives none, asking for all
    gives one. *)
Theorem C78_emd_refuted :
  exists (S : list Qc) o o', emd lin_spl 8 demo_default S None 1 = Ok o /\ emd lin_spl 8 demo_default S None (-1) = Ok o' /\
    imfs o = [] /\ List.length (imfs o') = 1%nat.
Proof.
  exists (qs [6; 0; 3; 4; -6; -5]).
  destruct (emd lin_spl 8 demo_default (qs [6; 0; 3; 4; -6; -5]) None 1) as [o|x] eqn:E.
  2:{ exfalso. apply (f_equal (fun r => match r with Ok _ => true | _ => false end)) in E. vm_compute in E. discriminate E. }
  destruct (emd lin_spl 8 demo_default (qs [6; 0; 3; 4; -6; -5]) None (-1)) as [o'|x] eqn:E'.
  2:{ exfalso. apply (f_equal (fun r => match r with Ok _ => true | _ => false end)) in E'. vm_compute in E'. discriminate E'. }
  exists o, o'. split; auto. split; auto. split.
  - assert (G : match emd lin_spl 8 demo_default (qs [6; 0; 3; 4; -6; -5]) None 1 with Ok o => List.length (imfs o) | _ => 1%nat end = O)
      by (vm_compute; reflexivity).
    rewrite E in G. destruct (imfs o); [reflexivity|discriminate G].
  - assert (G : match emd lin_spl 8 demo_default (qs [6; 0; 3; 4; -6; -5]) None (-1) with Ok o => List.length (imfs o) | _ => O end = 1%nat)
      by (vm_compute; reflexivity).
    rewrite E' in G. exact G.
Qed.
Print Assumptions C78_emd_refuted.

(** CEEMDAN: the first [k] rows are the same, and a run that was cut short has one more, the rest; the
    generator is left in the same state. *)
Theorem C78_ceemdan :
  forall A (N : Num A) G (gen : generator A G) std emd_of arrival c o S T k k' C' o', looser k k' ->
  ceemdan gen std emd_of arrival c o S T k' = (Ok C', o') ->
  exists C o1, ceemdan gen std emd_of arrival c o S T k = (Ok C, o1) /\
    firstn (Z.to_nat k) C = firstn (Z.to_nat k) C' /\ (C = C' \/ zlen C = k + 1) /\ c_random o1 = c_random o'.
Proof. exact @ceemdan_limit. Qed.
Print Assumptions C78_ceemdan.

(** BEMD: the first [k] components are the same. *)
Theorem C78_bemd :
  forall A (N : Num A) rec f c fuel (image : list (list A)) k k' rows', looser k k' ->
  bemd rec f c fuel image k' = Ok rows' ->
  exists rows, bemd rec f c fuel image k = Ok rows /\ firstn (Z.to_nat k) rows = firstn (Z.to_nat k) rows' /\
    (rows = rows' \/ k <= zlen rows).
Proof. exact @bemd_limit. Qed.
Print Assumptions C78_bemd.

(** EMD2D: all components but the last, which carries the offset of the image, are the same. *)
Theorem C78_emd2d :
  forall A (N : Num A) sbs c fuel (image : list (list A)) k k' rows', looser k k' ->
  emd2d sbs c fuel image k' = Ok rows' ->
  exists rows, emd2d sbs c fuel image k = Ok rows /\
    firstn (List.length rows - 1) rows = firstn (List.length rows - 1) rows' /\ (rows = rows' \/ k <= zlen rows).
Proof. exact @Limit.emd2d_limit. Qed.
Print Assumptions C78_emd2d.

(** EMD_matlab, where the limit counts the residue (and 1 means no limit): the first [k-1] rows of the
    dictionaries are the same. *)
Theorem C78_matlab :
  forall A (N : Num A) (spl : spline_oracle A) fuel c S T k k' rows' n', 2 <= k -> limit_of k' <= 1 \/ k <= limit_of k' ->
  m_emd spl fuel c S T k' = Ok (rows', n') ->
  exists rows n, m_emd spl fuel c S T (Some k) = Ok (rows, n) /\
    firstn (Z.to_nat (k - 1)) rows = firstn (Z.to_nat (k - 1)) rows'.
Proof. exact @m_emd_limit. Qed.
Print Assumptions C78_matlab.

(** ** Non-vacuity: runs that the limit cuts short. *)
Example C78_emd_meets : looser 1 (-1) /\ FIXE demo_fixe <> 0 /\ 1 < MAX_ITERATION demo_fixe /\
  match emd lin_spl 8 demo_fixe demo_S None (-1), emd lin_spl 8 demo_fixe demo_S None 1 with
  | Ok o', Ok o => List.length (imfs o') = 3%nat /\ List.length (imfs o) = 1%nat | _, _ => False end.
Proof. split; [split; [lia|left; lia]|]. split; [discriminate|]. split; [reflexivity|]. vm_compute. auto. Qed.
Example C78_ceemdan_meets : let S := qs [0; 2; 0; 6; 4; 6; 0; 2; 0; 6; 4] in looser 1 2 /\
  match demo_ceemdan (demo_ccfg 2 1%Qc true false) demo_cst S 2, demo_ceemdan (demo_ccfg 2 1%Qc true false) demo_cst S 1 with
  | (Ok C', _), (Ok C, _) => 2 < zlen C' /\ zlen C = 2 | _, _ => False end.
Proof. split; [split; [lia|right; lia]|]. vm_compute. auto. Qed.
Example C78_images_meet : looser 1 2 /\
  match emd2d (flat_surface half) (cfg2_of 2 0 100) 5 (spikes 3) 2 with Ok rows => List.length rows = 3%nat | _ => False end /\
  match emd2d (flat_surface half) (cfg2_of 2 0 100) 5 (spikes 3) 1 with Ok rows => List.length rows = 2%nat | _ => False end /\
  match bemd recon (flat_rbf half) (cfg2_of 2 0 100) 5 hills 2 with Ok rows => List.length rows = 3%nat | _ => False end /\
  match bemd recon (flat_rbf half) (cfg2_of 2 0 100) 5 hills 1 with Ok rows => List.length rows = 2%nat | _ => False end.
Proof. split; [split; [lia|right; lia]|]. vm_compute. auto. Qed.
Example C78_matlab_meets :
  match m_emd lin_spl 9 mat_fixe demo_S None None, m_emd lin_spl 9 mat_fixe demo_S None (Some 2) with
  | Ok (r', _), Ok (r, _) => 2 < zlen r' /\ zlen r = 2 | _, _ => False end.
Proof. vm_compute. auto. Qed.
