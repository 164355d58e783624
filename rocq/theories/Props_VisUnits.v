(** * Props_VisUnits: frequencies, units of time and levels (C117). *)
From Verif Require Import PyFacts QcFacts Spec Vis Compact VisUnitsSpec VisUnits VisSum Demo.
From Coq Require Import QArith Qcanon.
Open Scope Z_scope.

(** ** C117: the instantaneous frequency is per unit of time and does not depend on the level. *)
(** With the times on a clock that runs c times as fast and starts at d, every frequency drawn is
    divided by c and nothing else changes (captions, number of panels, exceptions): by both schemes,
    with and without filter, whatever SciPy and NumPy compute as the phase.  (Where the first two
    times are equal the code divides by zero, and the model is not faithful.) *)
Theorem C117_clock : forall (c d : Qc) hilbert angle unwrap pi v t imfs high alpha, c <> 0%Qc ->
  plot_instant_freq hilbert angle unwrap pi v (other_clock c d t) imfs high alpha =
  outcome (map (redrawn c d)) (plot_instant_freq hilbert angle unwrap pi v t imfs high alpha).
Proof. intros c d hb an un pi v t imfs high alpha _. exact (plot_clock c d hb an un pi v t imfs high alpha). Qed.
Print Assumptions C117_clock.

(** Imfs times k give the same picture, provided that the analytic signal of k times a row is k times
    that of the row, and that the angle of a complex number does not depend on the factor k. *)
Theorem C117_level : forall (k : Qc) hilbert angle unwrap pi v t I high alpha,
  (forall row, hilbert (map (Qcmult k) row) =
     (map (Qcmult k) (fst (hilbert row)), map (Qcmult k) (snd (hilbert row)))) ->
  (forall x y, angle (k * x)%Qc (k * y)%Qc = angle x y) ->
  plot_instant_freq hilbert angle unwrap pi v t (Some (louder k I)) high alpha =
  plot_instant_freq hilbert angle unwrap pi v t (Some I) high alpha.
Proof. intros k hb an un pi v t I high alpha. exact (plot_level k hb an un pi v v t I high alpha). Qed.
Print Assumptions C117_level.

(** The schemes themselves: the filter is homogeneous, and the derivative is per step. *)
Theorem C117_filter : forall (k alpha : Qc) f, filt6 (map (Qcmult k) f) alpha = outcome (map (Qcmult k)) (filt6 f alpha).
Proof. intros k alpha f. exact (filt6_map k f alpha). Qed.
Print Assumptions C117_filter.
Theorem C117_derivative : forall (c h : Qc) v, pade6 v (c * h)%Qc = outcome (map (fun x => x / c)%Qc) (pade6 v h).
Proof.
  intros c h v. rewrite pade6_step. destruct (pade6 v h); [|reflexivity]. cbn. f_equal. apply map_ext. intros x. unfold Qcdiv. ring.
Qed.
Print Assumptions C117_derivative.

(** Superposition: filter and derivative of a sum are the sums of those of the parts. *)
Theorem C117_filter_sum : forall (f g x y : list Qc) alpha, length f = length g ->
  filt6 f alpha = Ok x -> filt6 g alpha = Ok y -> filt6 (map2 Qcplus f g) alpha = Ok (map2 Qcplus x y).
Proof. exact filt6_sum. Qed.
Print Assumptions C117_filter_sum.
Theorem C117_derivative_sum : forall (f g x y : list Qc) h, length f = length g ->
  pade6 f h = Ok x -> pade6 g h = Ok y -> pade6 (map2 Qcplus f g) h = Ok (map2 Qcplus x y).
Proof. exact pade6_sum. Qed.
Print Assumptions C117_derivative_sum.
Example C117_sum_nonvacuous :
  match filt6 (qs [1; 7; 12; 19; 25; 31; 36]) (Q2Qc (1 # 4)), filt6 (qs [0; 3; 1; 0; 0; 2; 5]) (Q2Qc (1 # 4)),
        pade6 (qs [1; 7; 12; 19; 25; 31; 36]) 1%Qc with
  | Ok x, Ok y, Ok z => length x = 7%nat /\ length y = 7%nat /\ length z = 7%nat
  | _, _, _ => False
  end.
Proof. vm_compute. auto. Qed.

(** A hilbert and an angle that meet the hypotheses for k = 3, and a plot: per minute instead of per
    second the frequencies are sixty times as large. *)
Definition with_reverse (row : list Qc) : list Qc * list Qc := (row, rev row).
Definition one_row : array2 Qc := MkArray2 7 [qs [1; 7; 12; 19; 25; 31; 36]].
Definition seconds : list Qc := qs [0; 60; 120; 180; 240; 300; 360].
Definition shown (t : list Qc) (high : bool) : list (list Q) :=
  match plot_instant_freq with_reverse (fun re _ => re) (fun p => p) 1%Qc (MkVis None None) t (Some one_row) high None with
  | Ok ps => map (fun c => map this (snd c)) (curves (nth 0 ps empty_panel)) | _ => [] end.
Example C117_nonvacuous :
  (forall row, with_reverse (map (Qcmult (Q2Qc 3)) row) =
     (map (Qcmult (Q2Qc 3)) (fst (with_reverse row)), map (Qcmult (Q2Qc 3)) (snd (with_reverse row)))) /\
  (forall x y, (Q2Qc 3 * x) / (Q2Qc 3 * y) = x / y)%Qc /\
  other_clock (Q2Qc (1 # 60)) 0%Qc seconds = qs [0; 1; 2; 3; 4; 5; 6] /\
  shown seconds false = [[1 # 20; 1 # 24; 7 # 120; 1 # 20; 1 # 20; 1 # 24; 1 # 24]]%Q /\
  shown (qs [0; 1; 2; 3; 4; 5; 6]) false = [[3; 5 # 2; 7 # 2; 3; 3; 5 # 2; 5 # 2]]%Q.
Proof.
  split. { intros row. unfold with_reverse. cbn [fst snd]. rewrite map_rev. reflexivity. }
  split. { intros x y. unfold Qcdiv. rewrite Qcinv_mult_distr.
           transitivity (Q2Qc 3 * / Q2Qc 3 * (x * / y))%Qc; [ring|].
           rewrite Qcmult_inv_r by (intros E; apply (f_equal this) in E; discriminate E). ring. }
  split. { unfold other_clock, seconds, qs. cbn [map]. repeat (apply f_equal2; [apply Qc_is_canon; reflexivity|]). reflexivity. }
  split; vm_compute; reflexivity.
Qed.
