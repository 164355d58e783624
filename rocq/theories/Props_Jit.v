(** * Props_Jit: property C46, JitEMD (experimental/jitemd.py) against EMD.

    [shaped], [within], [tol], [total_at], [negligible] are defined in Spec.v, [supported] and
    [unit_times] in JitSpec.v; [arange n] is the list 0, 1, ..., n - 1; [sample T i] is the
    [i]-th element of [T].  [strict] says whether dividing one scalar by zero raises an
    exception. *)
From Verif Require Import PyFacts QcFacts Emd Spec ExtremaSpec PrepareProofs EmdProofs EmdExact EmdStop
  Jit JitSpec JitProofs Demo.
From Coq Require Import QArith Qcanon.
From Coq Require String.
Import String.
Local Notation length := List.length.
Open Scope Z_scope.

(** The same extrema and zero crossings are found, at the same samples, with the same values;
    only JitEMD reports the index of a sample where EMD reports its time. *)
Theorem C46_extrema :
  forall (S T : list Qc), length T = length S ->
  exists e e' M m, find_extrema Simple T S = Ok e /\ jit_find_extrema Simple T S = Ok e' /\
    max_pos e' = map Qc_ofZ M /\ min_pos e' = map Qc_ofZ m /\
    max_pos e = map (sample T) M /\ min_pos e = map (sample T) m /\
    max_val e' = max_val e /\ min_val e' = min_val e /\ indzer e' = indzer e.
Proof. exact jit_find. Qed.
Print Assumptions C46_extrema.

(** The same mirrored points are prepared for the splines. *)
Theorem C46_points :
  forall (S : list Qc) e nb,
  1 <= nb -> find_extrema Simple (arange (length S)) S = Ok e ->
  2 < zlen (max_pos e) + zlen (min_pos e) ->
  jit_prepare_points Simple nb (arange (length S)) S e = prepare_points Simple nb (arange (length S)) S e.
Proof. intros S e nb. rewrite arange_tz. exact (jit_points S e nb). Qed.
Print Assumptions C46_points.

Theorem C46_spline_three_points :
  forall (pts : list (Qc * Qc)) T, jit_cubic_spline_3pts pts T = cubic_spline_3pts pts T.
Proof. exact jit_spline3. Qed.
Print Assumptions C46_spline_three_points.

Theorem C46_spline :
  forall (spl : spline_oracle Qc) kind T ext, supported kind ->
  jit_spline_points spl kind T ext = spline_points spl kind T ext.
Proof. exact jit_spline. Qed.
Print Assumptions C46_spline.

(** Simple detection, JitEMD given the times 0, 1, ..., n - 1: JitEMD returns the array EMD
    returns, or raises what EMD raises, whatever times EMD is given. *)
Theorem C46_emd_simple :
  forall (spl : spline_oracle Qc) strict fuel c S T k,
  (2 <= length S)%nat -> extrema_detection c = Simple -> 1 <= nbsym c -> supported (spline_kind c) ->
  (forall t, T = Some t -> length t = length S) ->
  jit_emd spl fuel strict c S (arange (length S)) k = let! o := emd spl fuel c S T k in Ok (out o).
Proof. exact jit_emd_simple. Qed.
Print Assumptions C46_emd_simple.

(** Parabolic detection, both given the same times, starting at zero with smallest step one. *)
Theorem C46_emd_parabol :
  forall (spl : spline_oracle Qc) strict fuel c S T k,
  (2 <= length S)%nat -> extrema_detection c = Parabol -> supported (spline_kind c) ->
  length T = length S -> unit_times T ->
  jit_emd spl fuel strict c S T k = let! o := emd spl fuel c S (Some T) k in Ok (out o).
Proof.
  intros spl strict fuel c S T k HS Hd Hk HT HU. apply jit_emd_parabol; auto.
  apply normalize_id; auto. rewrite HT; auto.
Qed.
Print Assumptions C46_emd_parabol.

(** For any times: the rows have the signal's length and add up to it up to 1e-8. *)
Theorem C46_reconstruction :
  forall (spl : spline_oracle Qc) fuel strict c S T k M,
  (2 <= length S)%nat -> jit_emd spl fuel strict c S T k = Ok M ->
  shaped (length S) M /\ forall i, (i < length S)%nat -> within tol (nth i S 0%Qc - total_at M i)%Qc.
Proof. exact jit_emd_sum. Qed.
Print Assumptions C46_reconstruction.

(** When both return the same array and its last row is not negligible, the accessors agree,
    except that JitEMD's trend is an array with that one row. *)
Theorem C46_trend :
  forall (spl : spline_oracle Qc) fuel strict c c' S T T' k o st,
  emd spl fuel c S T k = Ok o -> jit_emd spl fuel strict c' S T' k = Ok (out o) ->
  forall M x, out o = M ++ [x] -> ~ negligible x ->
  get_imfs_and_trend (MkState (Some (imfs o)) (Some (residue o))) = Ok (M, x) /\
  jit_imfs_and_trend (snd (jit_call spl fuel strict c' st S T' k)) = Ok (M, TrendRows [x]).
Proof. exact jit_trend_agree. Qed.
Print Assumptions C46_trend.

(** When the last row is negligible, JitEMD drops it and reports the row before it as the trend. *)
Theorem C46_trend_negligible : forall (spl : spline_oracle Qc) fuel strict c S T k st M y x,
  jit_emd spl fuel strict c S T k = Ok (M ++ [y; x]) -> negligible x ->
  jit_imfs_and_trend (snd (jit_call spl fuel strict c st S T k)) = Ok (M, TrendRow y).
Proof. exact jit_trend_small. Qed.
Print Assumptions C46_trend_negligible.

Definition zigzag_cfg : emd_config Qc :=
  let d := @demo_cfg Qc _ "linear"%string Simple 1 0 1000 in
  MkCfg (std_thr d) (svar_thr d) (energy_ratio_thr d) 0%Qc 0%Qc (nbsym d) (spline_kind d) (extrema_detection d)
        (FIXE d) (FIXE_H d) (MAX_ITERATION d).
Definition zigzag : list Qc :=
  map (fun p => Q2Qc (Qplus (fst p # 1) (snd p # 10000000000)))
      (combine [1; -1; 1; -1; 1; -1; 1; -1; 1; -1; 1; -1] [0; 1; 2; 3; 2; 1; 0; 1; 2; 3; 2; 1]).
Example C46_trend_negligible_nonvacuous :
  match jit_emd lin_spl 10 true zigzag_cfg zigzag (arange (length zigzag)) 2 with
  | Ok [y; x] => allclose0 x && negb (allclose0 y)
  | _ => false end = true.
Proof. vm_compute. reflexivity. Qed.

(** Before the first run: TypeError, where EMD raises ValueError. *)
Theorem C46_before_run :
  jit_imfs_and_trend (@jit_init Qc) = Raise TypeError /\
  get_imfs_and_trend (MkState (A := Qc) None None) = Raise ValueError.
Proof. split; reflexivity. Qed.
Print Assumptions C46_before_run.

(** ** Where the two differ *)
(** Simple detection with other times: EMD ignores them, JitEMD does not. *)
Theorem C46_other_times_refuted :
  exists (spl : spline_oracle Qc) fuel c S T k M o,
  extrema_detection c = Simple /\ supported (spline_kind c) /\ length T = length S /\
  jit_emd spl fuel true c S T k = Ok M /\ emd spl fuel c S (Some T) k = Ok o /\ M <> out o.
Proof.
  exists lin_spl, 10%nat, demo_fixe, demo_S, demo_T, (-1).
  assert (G : match jit_emd lin_spl 10 true demo_fixe demo_S demo_T (-1), emd lin_spl 10 demo_fixe demo_S (Some demo_T) (-1) with
              | Ok M, Ok o => Qeq_bool (this (nth 0 (nth 0 M []) 0%Qc)) (this (nth 0 (nth 0 (out o) []) 0%Qc)) = false
              | _, _ => False end) by (vm_compute; reflexivity).
  destruct (jit_emd lin_spl 10 true demo_fixe demo_S demo_T (-1)) as [M|]; [|contradiction].
  destruct (emd lin_spl 10 demo_fixe demo_S (Some demo_T) (-1)) as [o|]; [|contradiction].
  exists M, o. split; [reflexivity|]. split; [exact I|]. split; [reflexivity|]. split; [reflexivity|]. split; [reflexivity|].
  intros ->. rewrite Qeq_bool_refl in G. discriminate.
Qed.
Print Assumptions C46_other_times_refuted.

(** Two of EMD's spline kinds are not available. *)
Theorem C46_kinds_refuted :
  exists (spl : spline_oracle Qc) fuel c S k o,
  emd spl fuel c S None k = Ok o /\
  jit_emd spl fuel true c S (arange (length S)) k = Raise ValueError.
Proof.
  set (c := @demo_cfg Qc _ "pchip"%string Simple 1 0 1000).
  exists lin_spl, 10%nat, c, demo_S, (-1).
  assert (G : match emd lin_spl 10 c demo_S None (-1) with Ok _ => True | _ => False end) by (vm_compute; exact I).
  destruct (emd lin_spl 10 c demo_S None (-1)) as [o|]; [|contradiction].
  exists o. split; [reflexivity|]. vm_compute. reflexivity.
Qed.
Print Assumptions C46_kinds_refuted.

(** A signal so small that every component is negligible: EMD's accessor gives the one component
    as the trend, JitEMD's fails. *)
Definition tiny_cfg := @demo_cfg Qc _ "linear"%string Simple 1 0 1000.
Definition tiny_S : list Qc := map (fun z => Q2Qc (z # 1000000000)) [0; 1; -1; 2; -2; 1; 0].
Example tiny_emd :
  match emd lin_spl 10 tiny_cfg tiny_S None (-1) with
  | Ok o => match get_imfs_and_trend (MkState (Some (imfs o)) (Some (residue o))) with Ok _ => true | _ => false end
  | _ => false end = true.
Proof. vm_compute. reflexivity. Qed.
Example tiny_jit :
  match jit_imfs_and_trend (snd (jit_call lin_spl 10 true tiny_cfg jit_init tiny_S (arange (length tiny_S)) (-1))) with
  | Raise IndexError => true | _ => false end = true.
Proof. vm_compute. reflexivity. Qed.

Theorem C46_trend_refuted :
  exists (spl : spline_oracle Qc) fuel c S k o,
  emd spl fuel c S None k = Ok o /\ jit_emd spl fuel true c S (arange (length S)) k = Ok (out o) /\
  (exists t, get_imfs_and_trend (MkState (Some (imfs o)) (Some (residue o))) = Ok t) /\
  jit_imfs_and_trend (snd (jit_call spl fuel true c jit_init S (arange (length S)) k)) = Raise IndexError.
Proof.
  exists lin_spl, 10%nat, tiny_cfg, tiny_S, (-1).
  pose proof (jit_emd_simple lin_spl true 10 tiny_cfg tiny_S None (-1)) as HJ.
  pose proof tiny_emd as G. pose proof tiny_jit as G'. 
  revert HJ G G'. generalize (emd lin_spl 10 tiny_cfg tiny_S None (-1)). intros r HJ G.
  destruct r as [o|]; [|exfalso; discriminate G].
  generalize (jit_imfs_and_trend (snd (jit_call lin_spl 10 true tiny_cfg jit_init tiny_S (arange (length tiny_S)) (-1)))).
  intros r G'. exists o.
  split; [reflexivity|]. split.
  { cbn [bind] in HJ. refine (HJ _ _ _ _ _); [cbn; repeat constructor|reflexivity|intros E; discriminate E|exact I|].
    intros t E. discriminate E. }
  split; [destruct (get_imfs_and_trend _) as [t|]; [exists t; reflexivity|exfalso; discriminate G]|].
  destruct r as [|[]]; try discriminate G'. reflexivity.
Qed.
Print Assumptions C46_trend_refuted.

(** ** The hypotheses are met *)
Example C46_nonvacuous_simple :
  (2 <= length demo_S)%nat /\ extrema_detection demo_fixe = Simple /\ 1 <= nbsym demo_fixe /\
  supported (spline_kind demo_fixe) /\ length demo_T = length demo_S /\
  match jit_emd lin_spl 10 true demo_fixe demo_S (arange (length demo_S)) (-1) with
  | Ok M => 3 <=? zlen M | _ => false end = true.
Proof. split; [cbn; repeat constructor|]. split; [reflexivity|]. split; [cbn; discriminate|]. split; [exact I|]. split; [reflexivity|]. vm_compute. reflexivity. Qed.

Example C46_nonvacuous_parabol :
  extrema_detection demo_parabol = Parabol /\ supported (spline_kind demo_parabol) /\ unit_times demo_T /\
  match jit_emd lin_spl 10 true demo_parabol demo_S demo_T 1 with
  | Ok M => 2 <=? zlen M | _ => false end = true.
Proof.
  split; [reflexivity|]. split; [exact I|]. split.
  - split; [reflexivity|]. split.
    + intros i Hi. cbn [demo_T qs map List.length] in Hi.
      do 18 (destruct i as [|i]; [vm_compute; discriminate|]). do 19 apply le_S_n in Hi. inversion Hi.
    + exists 0%nat. split; [cbn; repeat constructor|]. apply Qc_is_canon. vm_compute. reflexivity.
  - vm_compute. reflexivity.
Qed.

Example C46_nonvacuous_trend :
  match emd lin_spl 10 demo_fixe demo_S None (-1) with
  | Ok o => (2 <=? zlen (out o)) && negb (allclose0 (last (out o) []))
  | _ => false end = true.
Proof. vm_compute. reflexivity. Qed.
