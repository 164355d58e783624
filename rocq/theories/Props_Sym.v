(** * Props_Sym: properties C66 to C68, about transformed signals (EMD.py).

    [responds] and [rescaled] are defined in SymSpec.v.  [find_extrema] models find_extrema of
    EMD.py, [emd] the method emd: [out] is the returned array, [imfs] and [residue] are what
    get_imfs_and_residue returns afterwards. *)
From Verif Require Import PyFacts QcFacts Emd Extrema SymSpec EmdSym Demo.
From Coq Require Import QArith Qcanon.
From Coq Require Import String List.
Import ListNotations.
Open Scope Z_scope.

(** ** C66 *)
(** The extrema of the negated signal are those of the signal with the roles of maxima and minima
    exchanged, at the same times and with the negated values; the zero crossings stay. *)
Theorem C66_extrema :
  forall (T S : list Qc) e, find_extrema Simple T S = Ok e ->
  find_extrema Simple T (map Qcopp S) =
    Ok (MkExt (min_pos e) (map Qcopp (min_val e)) (max_pos e) (map Qcopp (max_val e)) (indzer e)).
Proof. exact extrema_negated. Qed.
Print Assumptions C66_extrema.

(** Under every stopping rule and every limit, the decomposition of the negated signal is the
    negated decomposition: returned array, IMFs and residue. *)
Theorem C66_emd :
  forall spl fuel c S T max_imf o, responds Qcopp spl -> extrema_detection c = Simple ->
  (2 <= length S)%nat -> emd spl fuel c S T max_imf = Ok o ->
  exists o', emd spl fuel c (map Qcopp S) T max_imf = Ok o' /\
    out o' = map (map Qcopp) (out o) /\ imfs o' = map (map Qcopp) (imfs o) /\ residue o' = map Qcopp (residue o).
Proof. exact emd_negated. Qed.
Print Assumptions C66_emd.

Example C66_responds : responds Qcopp (@lin_spl Qc _).
Proof. apply (lin_responds (- (1))%Qc 0). intros. unfold g. ring. Qed.
Example C66_cfg : extrema_detection demo_default = Simple /\ (2 <= length demo_S)%nat.
Proof. split; [reflexivity|]. apply Nat.leb_le. reflexivity. Qed.
Example C66_run :
  match emd lin_spl 10 demo_default demo_S (Some demo_T) (-1) with Ok o => 2 <=? zlen (imfs o) | _ => false end = true.
Proof. vm_compute. reflexivity. Qed.

(** Parabolic detection does not treat the two kinds of extrema alike: the 1e-14 below which a
    parabola counts as straight is tested without an absolute value, so a straight line may have a
    minimum where the negated line has no maximum. *)
Theorem C66_parabol_refuted :
  exists (T S : list Qc) e e', find_extrema Parabol T S = Ok e /\ find_extrema Parabol T (map Qcopp S) = Ok e' /\
  length (min_pos e) <> length (max_pos e').
Proof.
  pose (T := qs [0; 1; 2]). pose (S := map (fun z => (- (z / Q2Qc (10 ^ 14)))%Qc) (qs [0; 2; 4])).
  assert (G : match find_extrema Parabol T S, find_extrema Parabol T (map Qcopp S) with
              | Ok e, Ok e' => negb (Nat.eqb (length (min_pos e)) (length (max_pos e'))) | _, _ => false end = true)
    by (vm_compute; reflexivity).
  exists T, S. destruct (find_extrema Parabol T S) as [e|]; [|discriminate G].
  destruct (find_extrema Parabol T (map Qcopp S)) as [e'|]; [|discriminate G].
  exists e, e'. split; auto. split; auto. intros X. rewrite X, Nat.eqb_refl in G. discriminate G.
Qed.
Print Assumptions C66_parabol_refuted.

(** ** C67 *)
(** With a fixed number of sifts, or the S-number rule, expressing the signal in another unit
    (every sample times [k]), and the thresholds range_thr and total_power_thr in that unit too,
    gives the same decomposition in the new unit.  [r] is the absolute value of [k]. *)
Theorem C67_unit :
  forall spl fuel c S T max_imf k r o, (0 < r)%Qc -> k = r \/ k = (- r)%Qc ->
  responds (Qcmult k) spl -> extrema_detection c = Simple ->
  FIXE c <> 0 \/ FIXE_H c <> 0 -> (2 <= length S)%nat -> emd spl fuel c S T max_imf = Ok o ->
  exists o', emd spl fuel (rescaled r c) (map (Qcmult k) S) T max_imf = Ok o' /\
    imfs o' = map (map (Qcmult k)) (imfs o) /\ residue o' = map (Qcmult k) (residue o).
Proof. exact emd_unit. Qed.
Print Assumptions C67_unit.

Example C67_responds : responds (Qcmult (Q2Qc (1 # 1000))) (@lin_spl Qc _).
Proof. apply (lin_responds (Q2Qc (1 # 1000)) 0). intros. unfold g. ring. Qed.
Example C67_cfg : extrema_detection demo_fixeh = Simple /\ FIXE_H demo_fixeh <> 0.
Proof. split; [reflexivity|discriminate]. Qed.
Example C67_run :
  match emd lin_spl 10 demo_fixeh demo_S (Some demo_T) (-1) with Ok o => 2 <=? zlen (imfs o) | _ => false end = true.
Proof. vm_compute. reflexivity. Qed.

Definition C67_S : list Qc := qs [0; 30; -1; 1; -1; 1; -30; 30; -1; 1; -1; 1; -30; 0].
Definition C67_c : emd_config Qc := demo_cfg "linear" Simple 0 0 6.
Definition C67_k : Qc := Q2Qc (1 # 100000).
(** The standard stopping rule depends on the unit, even when the thresholds are converted: the
    variance test and the 1e-10 of the energy test compare the samples with fixed numbers. *)
Theorem C67_default_refuted :
  exists spl fuel c S T max_imf k o o', k <> 0%Qc /\ responds (Qcmult k) spl /\ extrema_detection c = Simple /\
  FIXE c = 0 /\ FIXE_H c = 0 /\ emd spl fuel c S T max_imf = Ok o /\
  emd spl fuel (rescaled k c) (map (Qcmult k) S) T max_imf = Ok o' /\ (0 < k)%Qc /\
  imfs o' <> map (map (Qcmult k)) (imfs o).
Proof.
  exists lin_spl, 3%nat, C67_c, C67_S, None, 1, C67_k.
  assert (G : match emd lin_spl 3 C67_c C67_S None 1, emd lin_spl 3 (rescaled C67_k C67_c) (map (Qcmult C67_k) C67_S) None 1 with
              | Ok o, Ok o' => if list_eq_dec (list_eq_dec Qc_eq_dec) (imfs o') (map (map (Qcmult C67_k)) (imfs o))
                               then false else true
              | _, _ => false end = true) by (vm_compute; reflexivity).
  destruct (emd lin_spl 3 C67_c C67_S None 1) as [o|]; [|discriminate G].
  destruct (emd lin_spl 3 (rescaled C67_k C67_c) (map (Qcmult C67_k) C67_S) None 1) as [o'|]; [|discriminate G].
  exists o, o'. split; [discriminate|]. split; [apply (lin_responds C67_k 0); intros; unfold g; ring|].
  do 5 (split; [reflexivity|]). split; [reflexivity|].
  destruct (list_eq_dec (list_eq_dec Qc_eq_dec) (imfs o') (map (map (Qcmult C67_k)) (imfs o))) as [X|X]; [discriminate G|exact X].
Qed.
Print Assumptions C67_default_refuted.

(** ** C68 *)
(** With a fixed number of sifts, or the S-number rule, and the total-power test switched off, a
    constant added to the signal ends up in the residue and the IMFs stay as they are. *)
Theorem C68_offset :
  forall spl fuel c S T max_imf a o, responds (fun y => y + a)%Qc spl -> extrema_detection c = Simple ->
  FIXE c <> 0 \/ FIXE_H c <> 0 -> 1 < MAX_ITERATION c -> (total_power_thr c <= 0)%Qc ->
  (2 <= length S)%nat -> emd spl fuel c S T max_imf = Ok o ->
  exists o', emd spl fuel c (map (fun y => y + a)%Qc S) T max_imf = Ok o' /\
    imfs o' = imfs o /\ residue o' = map (fun y => y + a)%Qc (residue o).
Proof. exact emd_offset. Qed.
Print Assumptions C68_offset.

Definition C68_c : emd_config Qc :=
  MkCfg (Q2Qc (1 # 5)) (Q2Qc (1 # 1000)) (Q2Qc (1 # 5)) 0%Qc (Q2Qc (1 # 1000)) 2 "linear" Simple 0 2 1000.
Example C68_responds : responds (fun y => y + Q2Qc (1000 # 1))%Qc (@lin_spl Qc _).
Proof. apply (lin_responds 1 (Q2Qc (1000 # 1))). intros. unfold g. ring. Qed.
Example C68_cfg : extrema_detection C68_c = Simple /\ FIXE_H C68_c <> 0 /\ 1 < MAX_ITERATION C68_c /\
  (total_power_thr C68_c <= 0)%Qc.
Proof. split; [reflexivity|]. split; [discriminate|]. split; [reflexivity|discriminate]. Qed.
Example C68_run :
  match emd lin_spl 10 C68_c demo_S (Some demo_T) (-1) with Ok o => 2 <=? zlen (imfs o) | _ => false end = true.
Proof. vm_compute. reflexivity. Qed.

(** Under the standard stopping rule an offset changes the IMFs: the energy test divides by the
    energy of the signal, offset included. *)
Theorem C68_default_refuted :
  exists spl fuel c S T max_imf a o o', responds (fun y => y + a)%Qc spl /\ extrema_detection c = Simple /\
  FIXE c = 0 /\ FIXE_H c = 0 /\ emd spl fuel c S T max_imf = Ok o /\
  emd spl fuel c (map (fun y => y + a)%Qc S) T max_imf = Ok o' /\ imfs o' <> imfs o.
Proof.
  pose (c := demo_cfg "linear" Simple 0 0 5 : emd_config Qc). pose (S := qs [0; 2; -1; 1; -2; 1; -1; 2; 0]).
  pose (a := q 10).
  assert (G : match emd lin_spl 3 c S None 1, emd lin_spl 3 c (map (fun y => y + a)%Qc S) None 1 with
              | Ok o, Ok o' => if list_eq_dec (list_eq_dec Qc_eq_dec) (imfs o') (imfs o) then false else true
              | _, _ => false end = true) by (vm_compute; reflexivity).
  exists lin_spl, 3%nat, c, S, None, 1, a.
  destruct (emd lin_spl 3 c S None 1) as [o|]; [|discriminate G].
  destruct (emd lin_spl 3 c (map (fun y => y + a)%Qc S) None 1) as [o'|]; [|discriminate G].
  exists o, o'. split; [apply (lin_responds 1 a); intros; unfold g; ring|].
  do 5 (split; [reflexivity|]).
  destruct (list_eq_dec (list_eq_dec Qc_eq_dec) (imfs o') (imfs o)) as [X|X]; [discriminate G|exact X].
Qed.
Print Assumptions C68_default_refuted.

(** With the total-power test on, an offset keeps the decomposition from stopping. *)
Theorem C68_power_refuted :
  exists spl fuel c S T max_imf a o o', responds (fun y => y + a)%Qc spl /\ extrema_detection c = Simple /\
  FIXE c <> 0 /\ emd spl fuel c S T max_imf = Ok o /\
  emd spl fuel c (map (fun y => y + a)%Qc S) T max_imf = Ok o' /\ zlen (imfs o) < zlen (imfs o').
Proof.
  pose (c := MkCfg (Q2Qc (1 # 5)) (Q2Qc (1 # 1000)) (Q2Qc (1 # 5)) (q 1000) (Q2Qc (1 # 1000)) 2 "linear" Simple 1 0 1000
             : emd_config Qc).
  pose (S := qs [0; 9; -1; 1; -9; 9; -1; 1; -9; 0]). pose (a := q 1000).
  assert (G : match emd lin_spl 3 c S None 2, emd lin_spl 3 c (map (fun y => y + a)%Qc S) None 2 with
              | Ok o, Ok o' => zlen (imfs o) <? zlen (imfs o') | _, _ => false end = true) by (vm_compute; reflexivity).
  exists lin_spl, 3%nat, c, S, None, 2, a.
  destruct (emd lin_spl 3 c S None 2) as [o|]; [|discriminate G].
  destruct (emd lin_spl 3 c (map (fun y => y + a)%Qc S) None 2) as [o'|]; [|discriminate G].
  exists o, o'. split; [apply (lin_responds 1 a); intros; unfold g; ring|].
  split; [reflexivity|]. split; [discriminate|]. split; [reflexivity|]. split; [reflexivity|].
  apply Z.ltb_lt. exact G.
Qed.
Print Assumptions C68_power_refuted.
