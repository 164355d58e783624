(** * Props_Reverse: property C77, signals read backwards (EMD.py).

    [pointed], [turned], [turns], [sifted] and [minus_first] are defined in RevSpec.v, [arange] (the
    times 0, 1, 2, ...) in Spec.v.  [find_extrema] and [prepare_points] model the methods of the same
    names of EMD.py, [emd] the method emd. *)
From Verif Require Import PyFacts QcFacts Emd Extrema Spec RevSpec ReverseEmd ReverseLin Demo.
From Coq Require Import QArith Qcanon.
From Coq Require Import String List.
Import ListNotations.
Open Scope Z_scope.

(** ** C77 *)
(** Where no local extremum is a plateau and neither end is flat, the extrema of the reversed signal
    are those of the signal seen from the other end, with the same values. *)
Theorem C77_extrema :
  forall (S : list Qc) e, (2 <= length S)%nat -> pointed S ->
  find_extrema Simple (arange (length S)) S = Ok e ->
  exists e', find_extrema Simple (arange (length S)) (rev S) = Ok e' /\
    max_pos e' = map (fun u => Qc_ofZ (Z.of_nat (length S) - 1) - u)%Qc (rev (max_pos e)) /\ max_val e' = rev (max_val e) /\
    min_pos e' = map (fun u => Qc_ofZ (Z.of_nat (length S) - 1) - u)%Qc (rev (min_pos e)) /\ min_val e' = rev (min_val e).
Proof. exact extrema_reversed. Qed.
Print Assumptions C77_extrema.

(** The number of zero crossings found is the same for every signal and its reverse, plateaus or not. *)
Theorem C77_zero_crossings :
  forall (T S : list Qc) e e', find_extrema Simple T S = Ok e -> find_extrema Simple T (rev S) = Ok e' ->
  length (indzer e') = length (indzer e).
Proof. exact crossings_reversed. Qed.
Print Assumptions C77_zero_crossings.

(** The points handed to the interpolation, with the mirrored ones beyond both ends, are turned too. *)
Theorem C77_points :
  forall (S : list Qc) nb e e' P Q, (2 <= length S)%nat -> pointed S -> 1 <= nb ->
  find_extrema Simple (arange (length S)) S = Ok e -> find_extrema Simple (arange (length S)) (rev S) = Ok e' ->
  2 < ext_no e -> prepare_points Simple nb (arange (length S)) S e = Ok (P, Q) ->
  prepare_points Simple nb (arange (length S)) (rev S) e' =
    Ok (turned (Qc_ofZ (Z.of_nat (length S) - 1)) P, turned (Qc_ofZ (Z.of_nat (length S) - 1)) Q).
Proof. exact points_reversed. Qed.
Print Assumptions C77_points.

(** The decomposition of the reversed signal is the reversed decomposition, for every stopping rule and
    every limit, provided no signal met on the way has a flat top or a flat end: neither what remains
    after the first [j] IMFs, nor any of its successive siftings. *)
Theorem C77_emd :
  forall spl fuel c S T max_imf o, turns spl -> extrema_detection c = Simple -> 1 <= nbsym c -> (2 <= length S)%nat ->
  emd spl fuel c S T max_imf = Ok o ->
  (forall j z, (j <= length (imfs o))%nat ->
     sifted spl c (Z.to_nat (MAX_ITERATION c)) (minus_first j (imfs o) S) z -> pointed z) ->
  exists o', emd spl fuel c (rev S) T max_imf = Ok o' /\
    out o' = map (@rev Qc) (out o) /\ imfs o' = map (@rev Qc) (imfs o) /\ residue o' = rev (residue o).
Proof. exact emd_reversed. Qed.
Print Assumptions C77_emd.

(** Piecewise linear interpolation does not care about the direction of the axis. *)
Theorem C77_linear_turns : turns lin_spl.
Proof. exact lin_turns. Qed.
Print Assumptions C77_linear_turns.

(** The restriction is needed.  A flat top that starts at the second sample is dropped, its mirror
    image at the other end is reported: the reversed signal has one maximum more. *)
Definition flat_start : list Qc := qs [0; 4; 4; 1; 5; 0; 6; 1; 7; 2].
Theorem C77_flat_start_refuted :
  exists (S : list Qc) e e', find_extrema Simple (arange (length S)) S = Ok e /\
    find_extrema Simple (arange (length S)) (rev S) = Ok e' /\ (length (max_pos e') = 1 + length (max_pos e))%nat.
Proof.
  exists flat_start. do 2 eexists. split; [reflexivity|]. split; [reflexivity|]. vm_compute. reflexivity.
Qed.
Print Assumptions C77_flat_start_refuted.

(** A flat top of two samples in the middle is reported at its second or first sample depending on the
    parity of its place; so the position found in the reversed signal need not be the mirrored one. *)
Definition flat_middle : list Qc := qs [0; 5; 1; 3; 3; 1; 6; 2].
Theorem C77_flat_middle_refuted :
  exists (S : list Qc) e e' p, sample S 0 <> sample S 1 /\
    sample S (Z.of_nat (length S) - 2) <> sample S (Z.of_nat (length S) - 1) /\
    find_extrema Simple (arange (length S)) S = Ok e /\ find_extrema Simple (arange (length S)) (rev S) = Ok e' /\
    In p (max_pos e) /\ ~ In (Qc_ofZ (Z.of_nat (length S) - 1) - p)%Qc (max_pos e').
Proof.
  exists flat_middle. do 2 eexists. exists (Qc_ofZ 4). split; [intros C; apply (f_equal this) in C; vm_compute in C; discriminate C|].
  split; [intros C; apply (f_equal this) in C; vm_compute in C; discriminate C|].
  split; [reflexivity|]. split; [reflexivity|]. split.
  - right. left. reflexivity.
  - intros C. apply (in_map this) in C. vm_compute in C. destruct C as [C|[C|[C|[]]]]; discriminate C.
Qed.
Print Assumptions C77_flat_middle_refuted.

(** And so the whole decomposition of a signal with a flat top is not reversed with the signal. *)
Definition short_cfg : emd_config Qc := demo_cfg "linear" Simple 0 0 4.
Definition one_sift_cfg : emd_config Qc := demo_cfg "linear" Simple 1 0 4.
Definition rows_equal (a b : list (list Qc)) : bool := if list_eq_dec (list_eq_dec Qc_eq_dec) a b then true else false.
Theorem C77_emd_refuted :
  exists (S : list Qc) c o o', turns lin_spl /\ extrema_detection c = Simple /\ 1 <= nbsym c /\
    emd lin_spl 10 c S None (-1) = Ok o /\ emd lin_spl 10 c (rev S) None (-1) = Ok o' /\
    out o' <> map (@rev Qc) (out o).
Proof.
  exists flat_start, one_sift_cfg.
  destruct (emd lin_spl 10 one_sift_cfg flat_start None (-1)) as [o|x] eqn:E.
  2:{ exfalso. apply (f_equal (fun r => match r with Ok _ => true | _ => false end)) in E. vm_compute in E. discriminate E. }
  destruct (emd lin_spl 10 one_sift_cfg (rev flat_start) None (-1)) as [o'|x] eqn:E'.
  2:{ exfalso. apply (f_equal (fun r => match r with Ok _ => true | _ => false end)) in E'. vm_compute in E'. discriminate E'. }
  exists o, o'. split; [exact lin_turns|]. split; [reflexivity|]. split; [vm_compute; discriminate|]. split; auto. split; auto.
  intros C. assert (G : match emd lin_spl 10 one_sift_cfg flat_start None (-1), emd lin_spl 10 one_sift_cfg (rev flat_start) None (-1) with
    | Ok o, Ok o' => rows_equal (out o') (map (@rev Qc) (out o)) | _, _ => true end = false) by (vm_compute; reflexivity).
  rewrite E, E' in G. unfold rows_equal in G. destruct (list_eq_dec _ _ _); [discriminate G|contradiction].
Qed.
Print Assumptions C77_emd_refuted.

(** ** Non-vacuity *)
Definition saw : list Qc := qs [0; 5; 1; 7; 2; 8; 3; 10; 4; 11; 6].
Example C77_saw_pointed : pointed saw /\
  match find_extrema Simple (arange (length saw)) saw with
  | Ok e => ext_no e = 9 /\ match prepare_points Simple 2 (arange (length saw)) saw e with Ok _ => True | _ => False end
  | _ => False end.
Proof.
  split; [apply no_ties_pointed; [vm_compute; repeat constructor|vm_compute; reflexivity]|vm_compute; auto].
Qed.
(** One IMF and a slow residue: every signal met while sifting is pointed. *)
Example C77_saw_meets : exists o, emd lin_spl 10 short_cfg saw None (-1) = Ok o /\ List.length (out o) = 2%nat /\
  forall j z, (j <= length (imfs o))%nat ->
     sifted lin_spl short_cfg (Z.to_nat (MAX_ITERATION short_cfg)) (minus_first j (imfs o) saw) z -> pointed z.
Proof.
  destruct (emd lin_spl 10 short_cfg saw None (-1)) as [o|x] eqn:E.
  2:{ exfalso. apply (f_equal (fun r => match r with Ok _ => true | _ => false end)) in E. vm_compute in E. discriminate E. }
  exists o. split; auto.
  assert (G : match emd lin_spl 10 short_cfg saw None (-1) with
    | Ok o => Nat.eqb (List.length (out o)) 2 && orbits_pointed lin_spl short_cfg 4 saw o | _ => false end = true) by (vm_compute; reflexivity).
  rewrite E in G. apply andb_prop in G as [G1 G2]. split; [apply Nat.eqb_eq; auto|].
  exact (orbits_pointed_ok _ _ _ _ _ G2).
Qed.
