(** * Props_Vis: the plotting helper (C51, C64). *)
From Verif Require Import PyFacts QcFacts Spec Emd Vis VisSpec CompactSpec VisProofs Demo.
From Coq Require Import QArith Qcanon.
Open Scope Z_scope.

(** ** C51: plot_imfs draws the imfs and the residue given, or else those of the object. *)
Theorem C51_imfs_and_residue : forall (v : vis Qc) imfs residue t (I : array2 Qc) R,
  chosen imfs (v_imfs v) I -> chosen residue (v_residue v) R ->
  Forall (fun r => length r = width I) (body I) -> length R = width I ->
  (forall u, t = Some u -> length u = width I) -> (1 <= length (body I))%nat ->
  exists x ps, drawn_at t (width I) x /\ plot_imfs v imfs residue t IsTrue = Ok ps /\
    length ps = Datatypes.S (length (body I)) /\
    (forall i, (i < length (body I))%nat -> nth i ps empty_panel =
      MkPanel (if (i =? 0)%nat then Some TimeSeries else None) (Some (ImfCaption (Z.of_nat i + 1))) [(x, nth i (body I) [])]) /\
    nth (length (body I)) ps empty_panel = MkPanel None (Some ResCaption) [(x, R)].
Proof. intros v imfs residue t I R HI HR Hw HL Ht H1. exact (plot_with v imfs residue t I HI Hw Ht R HR HL H1). Qed.
Print Assumptions C51_imfs_and_residue.
Theorem C51_imfs_only : forall (v : vis Qc) imfs residue t (I : array2 Qc),
  chosen imfs (v_imfs v) I -> Forall (fun r => length r = width I) (body I) ->
  (forall u, t = Some u -> length u = width I) -> (2 <= length (body I))%nat ->
  exists x ps, drawn_at t (width I) x /\ plot_imfs v imfs residue t Falsy = Ok ps /\ length ps = length (body I) /\
    forall i, (i < length (body I))%nat -> nth i ps empty_panel =
      MkPanel (if (i =? 0)%nat then Some TimeSeries else None) (Some (ImfCaption (Z.of_nat i + 1))) [(x, nth i (body I) [])].
Proof. intros v imfs residue t I HI Hw Ht H2. exact (plot_without v imfs residue t I HI Hw Ht H2). Qed.
Print Assumptions C51_imfs_only.
(** AttributeError exactly when something that is to be drawn is neither given nor stored. *)
Theorem C51_missing : forall (v : vis Qc) imfs residue t include,
  plot_imfs v imfs residue t include = Raise AttributeError <->
  (imfs = None /\ v_imfs v = None) \/ (include <> Falsy /\ residue = None /\ v_residue v = None).
Proof. exact plot_missing. Qed.
Print Assumptions C51_missing.
(** A figure of one panel cannot be drawn: a single imf without the residue, or a residue without
    any imf (the decomposition of a signal that does not oscillate). *)
Theorem C51_one_panel_fails : forall (v : vis Qc) imfs residue t (I : array2 Qc) include,
  chosen imfs (v_imfs v) I -> (include <> Falsy -> exists R, chosen residue (v_residue v) R) ->
  (length (body I) + match include with IsTrue => 1 | _ => 0 end = 1)%nat ->
  plot_imfs v imfs residue t include = Raise TypeError.
Proof. intros v imfs residue t I include HI HR. apply (plot_one v imfs residue t I HI). intros Hh. apply HR. intros ->. discriminate. Qed.
Print Assumptions C51_one_panel_fails.
(** include_residue=1 is not include_residue=True: the residue is drawn over the last imf. *)
Theorem C51_truthy_refuted : forall (v : vis Qc) imfs residue t (I : array2 Qc) R,
  chosen imfs (v_imfs v) I -> chosen residue (v_residue v) R ->
  Forall (fun r => length r = width I) (body I) -> length R = width I ->
  (forall u, t = Some u -> length u = width I) -> (2 <= length (body I))%nat ->
  exists x ps, drawn_at t (width I) x /\ plot_imfs v imfs residue t Truthy = Ok ps /\ length ps = length (body I) /\
    nth (length (body I) - 1) ps empty_panel =
      MkPanel None (Some ResCaption) [(x, nth (length (body I) - 1) (body I) []); (x, R)].
Proof. intros v imfs residue t I R HI HR Hw HL Ht H1. exact (plot_truthy v imfs residue t I HI Hw Ht R HR HL H1). Qed.
Print Assumptions C51_truthy_refuted.
(** An EMD object provides what its last run stored; before any run the helper cannot be made. *)
Definition emd_source (st : emd_state Qc) : res (array2 Qc * list Qc) :=
  let! (i, r) := get_imfs_and_residue st in Ok (MkArray2 (length r) i, r).
Theorem C51_from_object : forall st : emd_state Qc,
  (forall i r, st_imfs st = Some i -> st_residue st = Some r ->
     visualisation (Some (emd_source st)) = Ok (MkVis (Some (MkArray2 (length r) i)) (Some r))) /\
  (st_imfs st = None \/ st_residue st = None -> visualisation (Some (emd_source st)) = Raise ValueError).
Proof.
  intros st. unfold visualisation, emd_source, get_imfs_and_residue. split.
  - intros i r -> ->. reflexivity.
  - destruct (st_imfs st), (st_residue st); intros [E|E]; try discriminate E; reflexivity.
Qed.
Print Assumptions C51_from_object.
Definition two_imfs : array2 Qc := MkArray2 3 [qs [1; -1; 1]; qs [0; 2; 0]].
Example C51_nonvacuous :
  let v := MkVis (Some two_imfs) (Some (qs [5; 6; 7])) in
  chosen None (v_imfs v) two_imfs /\ Forall (fun r => length r = width two_imfs) (body two_imfs) /\
  chosen (Some (qs [9; 9; 9])) (v_residue v) (qs [9; 9; 9]) /\ chosen None (v_residue v) (qs [5; 6; 7]) /\
  chosen (Some (MkArray2 3 [qs [1; 2; 3]])) (v_imfs v) (MkArray2 3 [qs [1; 2; 3]]).
Proof. unfold chosen. repeat split; cbn; auto. Qed.

(** ** C64: the frequency drawn is that of the phase. *)
Theorem C64_phase_steps : forall hilbert angle unwrap (pi : Qc), pi <> 0%Qc ->
  (forall row : list Qc, length (fst (hilbert row)) = length row /\ length (snd (hilbert row)) = length row) ->
  forall (v : vis Qc) t t0 t1 imfs (I : array2 Qc) phases, chosen imfs (v_imfs v) I ->
  nth_error t 0 = Some t0 -> nth_error t 1 = Some t1 -> (t1 <> t0)%Qc -> (1 <= length (body I))%nat ->
  (forall i, (i < length (body I))%nat -> length (nth i (body I) []) = length t /\ length (nth i phases []) = length t /\
     measured filtered hilbert angle unwrap None (nth i (body I) []) (nth i phases [])) ->
  exists ps, plot_instant_freq hilbert angle unwrap pi v t imfs false None = Ok ps /\ length ps = length (body I) /\
    forall i, (i < length (body I))%nat -> exists f, turns (Q2Qc 2 * pi)%Qc (t1 - t0)%Qc (nth i phases []) f /\
      nth i ps empty_panel = MkPanel (if (i =? 0)%nat then Some InstantFrequency else None) (Some (HzCaption (Z.of_nat i + 1))) [(t, f)].
Proof. exact plot_steps. Qed.
Print Assumptions C64_phase_steps.
(** A phase that rotates f times per unit of time is drawn as f at every sample, by both schemes,
    with and without filter. *)
Theorem C64_even_rotation : forall hilbert angle unwrap (pi : Qc), pi <> 0%Qc ->
  (forall row : list Qc, length (fst (hilbert row)) = length row /\ length (snd (hilbert row)) = length row) ->
  forall (v : vis Qc) t dt imfs (I : array2 Qc) high alpha p0s fs phases, chosen imfs (v_imfs v) I ->
  evenly t dt -> dt <> 0%Qc ->
  ((2 <= length t)%nat /\ (high = true -> (7 <= length t)%nat) /\ (alpha <> None -> (5 <= length t)%nat)) ->
  (forall a, alpha = Some a -> (- Q2Qc (1 # 2) < a /\ a < Q2Qc (1 # 2))%Qc) ->
  (1 <= length (body I))%nat -> length fs = length (body I) ->
  (forall i, (i < length (body I))%nat -> length (nth i (body I) []) = length t /\
     measured filtered hilbert angle unwrap alpha (nth i (body I) []) (nth i phases []) /\
     rotating (Q2Qc 2 * pi)%Qc (nth i p0s 0%Qc) (nth i fs 0%Qc) t (nth i phases [])) ->
  exists ps, plot_instant_freq hilbert angle unwrap pi v t imfs high alpha = Ok ps /\ length ps = length (body I) /\
    forall i, (i < length (body I))%nat -> nth i ps empty_panel =
      MkPanel (if (i =? 0)%nat then Some InstantFrequency else None) (Some (HzCaption (Z.of_nat i + 1)))
        [(t, repeat (nth i fs 0%Qc) (length t))].
Proof. exact plot_rotating. Qed.
Print Assumptions C64_even_rotation.
(** alpha must lie strictly between -1/2 and 1/2; 1/2 itself, documented as "no filter", is
    rejected. *)
Theorem C64_alpha_range : forall hilbert angle unwrap (pi : Qc) (v : vis Qc) t imfs high a,
  ~ (- Q2Qc (1 # 2) < a /\ a < Q2Qc (1 # 2))%Qc ->
  plot_instant_freq hilbert angle unwrap pi v t imfs high (Some a) = Raise AssertionError.
Proof. exact plot_alpha. Qed.
Print Assumptions C64_alpha_range.
(** With uneven times an evenly rotating phase is not drawn at its frequency: only the first
    time step is used. *)
Definition as_phase (row : list Qc) : list Qc * list Qc := (row, row).
Definition turning : array2 Qc := MkArray2 3 [qs [0; 2; 6]].
Definition uneven_plot : res (list (panel Qc)) :=
  plot_instant_freq as_phase (fun re _ => re) (fun p => p) 1%Qc (MkVis None None) (qs [0; 1; 3]) (Some turning) false None.
Theorem C64_uneven_refuted : exists hilbert angle unwrap (pi : Qc) t I p ps,
  pi <> 0%Qc /\ (forall row : list Qc, length (fst (hilbert row)) = length row /\ length (snd (hilbert row)) = length row) /\
  measured filtered hilbert angle unwrap None (nth 0 (body I) []) p /\ rotating (Q2Qc 2 * pi)%Qc 0%Qc 1%Qc t p /\
  plot_instant_freq hilbert angle unwrap pi (MkVis None None) t (Some I) false None = Ok ps /\
  curves (nth 0 ps empty_panel) <> [(t, repeat 1%Qc (length t))].
Proof.
  destruct uneven_plot as [ps|e] eqn:E.
  2:{ exfalso. assert (K : match uneven_plot with Ok _ => true | _ => false end = true) by (vm_compute; reflexivity). rewrite E in K. discriminate K. }
  exists as_phase, (fun re _ => re), (fun p => p), 1%Qc, (qs [0; 1; 3]), turning, (qs [0; 2; 6]), ps.
  split; [discriminate|]. split; [intros row; cbn; auto|]. split.
  { exists (qs [0; 2; 6]), (qs [0; 2; 6]), (qs [0; 2; 6]). repeat split; auto. }
  split. { split; [reflexivity|]. intros [|[|[|i]]] Hi; cbn [length qs map] in Hi; try (apply Qc_is_canon; reflexivity). exfalso. do 3 apply Nat.succ_lt_mono in Hi. inversion Hi. }
  split; [exact E|]. intros C.
  assert (K : match uneven_plot with Ok ps => map (fun c => map this (snd c)) (curves (nth 0 ps empty_panel)) | _ => [] end = [[1; 2; 2]]%Q) by (vm_compute; reflexivity).
  rewrite E, C in K. cbn in K. discriminate K.
Qed.
Print Assumptions C64_uneven_refuted.
Definition seven : list Qc := qs [0; 1; 2; 3; 4; 5; 6].
Example C64_nonvacuous :
  measured filtered as_phase (fun re _ => re) (fun p => p) None (qs [1; 7; 13; 19; 25; 31; 37]) (qs [1; 7; 13; 19; 25; 31; 37]) /\
  rotating (Q2Qc 2 * 1)%Qc 1%Qc (Q2Qc 3) seven (qs [1; 7; 13; 19; 25; 31; 37]) /\ evenly seven 1%Qc /\
  match plot_instant_freq as_phase (fun re _ => re) (fun p => p) 1%Qc (MkVis None None) seven (Some (MkArray2 7 [qs [1; 7; 13; 19; 25; 31; 37]])) true (Some (Q2Qc (1 # 4))) with
  | Ok ps => map (fun c => map this (snd c)) (curves (nth 0 ps empty_panel)) | _ => [] end = [[3; 3; 3; 3; 3; 3; 3]]%Q.
Proof.
  split. { exists (qs [1; 7; 13; 19; 25; 31; 37]), (qs [1; 7; 13; 19; 25; 31; 37]), (qs [1; 7; 13; 19; 25; 31; 37]). repeat split; auto. }
  split. { split; [reflexivity|]. intros i Hi. do 7 (destruct i as [|i]; [apply Qc_is_canon; reflexivity|]). exfalso. cbn in Hi. do 7 apply Nat.succ_lt_mono in Hi. inversion Hi. }
  split. { intros i Hi. do 7 (destruct i as [|i]; [apply Qc_is_canon; reflexivity|]). exfalso. cbn in Hi. do 7 apply Nat.succ_lt_mono in Hi. inversion Hi. }
  vm_compute. reflexivity.
Qed.
