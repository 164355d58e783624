(** * Props_Emd: properties C01-C14 and C52, C53 of [EMD.emd].

    Each theorem is stated with the vocabulary of [Spec.v] about the model function [emd]
    (Emd.v).  [spl] is SciPy's interpolation: an arbitrary function.  [fuel] bounds the number
    of outer passes of the model; results are the same for every sufficient fuel
    ([C05_fuel_irrelevant]). *)
From Verif Require Import PyFacts QcFacts Emd Spec Demo.
From Verif Require Import EmdProofs EmdControl EmdExact EmdStop EmdTop Diverge.

Definition demo_run := emd lin_spl 10 demo_fixe demo_S None (-1).

(** ** C01 *)
Theorem C01_components_add_up :
  forall (spl : spline_oracle Qc) fuel c S T k o,
  emd spl fuel c S T k = Ok o ->
  adds_up (imfs o ++ [residue o]) S.
Proof. exact emd_adds_up. Qed.
Print Assumptions C01_components_add_up.

(** The hypothesis is met by a run that extracts three imfs. *)
Example C01_nonvacuous : exists o, demo_run = Ok o /\ length (imfs o) = 3%nat /\ length (out o) = 4%nat.
Proof. eexists. vm_compute. repeat split. Qed.

(** ** C02 *)
Theorem C02_returned_rows :
  forall (spl : spline_oracle Qc) fuel c S T k o,
  emd spl fuel c S T k = Ok o ->
  (negligible (residue o) /\ out o = imfs o) \/
  (~ negligible (residue o) /\ out o = imfs o ++ [residue o]).
Proof. exact emd_output. Qed.
Print Assumptions C02_returned_rows.

Theorem C02_returned_sum :
  forall (spl : spline_oracle Qc) fuel c S T k o i,
  emd spl fuel c S T k = Ok o -> (i < length S)%nat ->
  within tol (nth i S 0%Qc - total_at (out o) i)%Qc.
Proof. exact emd_output_sum. Qed.
Print Assumptions C02_returned_sum.

(** Both cases occur: a residue row, and a negligible residue. *)
Example C02_nonvacuous :
  (exists o, demo_run = Ok o /\ out o <> imfs o) /\
  (exists o, emd lin_spl 10 demo_fixe (qs [0; 0; 0; 0]) None (-1) = Ok o /\ out o = imfs o).
Proof.
  split; eexists; (split; [vm_compute; reflexivity|]); [|reflexivity].
  intros E. apply (f_equal (@length _)) in E. vm_compute in E. discriminate.
Qed.

(** ** C03, for every arithmetic *)
Theorem C03_shape :
  forall {A} `{Num A} (spl : spline_oracle A) fuel c S T k o,
  emd spl fuel c S T k = Ok o ->
  shaped (length S) (out o) /\ shaped (length S) (imfs o) /\ length (residue o) = length S.
Proof. exact @emd_shape. Qed.
Print Assumptions C03_shape.
Example C03_nonvacuous : exists o, demo_run = Ok o /\ map (@length _) (out o) = [19; 19; 19; 19]%nat.
Proof. eexists. vm_compute. repeat split. Qed.

(** ** C04, for every arithmetic *)
Theorem C04_max_imf :
  forall {A} `{Num A} (spl : spline_oracle A) fuel c S T k o,
  emd spl fuel c S T k = Ok o -> 0 < k ->
  zlen (imfs o) <= k /\ zlen (out o) <= k + 1.
Proof. exact @emd_max_imf. Qed.
Print Assumptions C04_max_imf.

Theorem C04_no_limit :
  forall {A} `{Num A} (spl : spline_oracle A) fuel c S T k k',
  k <= 0 -> k' <= 0 -> emd spl fuel c S T k = emd spl fuel c S T k'.
Proof. exact @emd_nolimit. Qed.
Print Assumptions C04_no_limit.
(** The limit is reached, and matters. *)
Example C04_nonvacuous :
  exists o, emd lin_spl 10 demo_fixe demo_S None 2 = Ok o /\ zlen (imfs o) = 2 /\ zlen (out o) = 3.
Proof. eexists. vm_compute. repeat split. Qed.

(** ** C05, for every arithmetic *)
Theorem C05_limited_run_ends :
  forall {A} `{Num A} (spl : spline_oracle A),
  (forall kind pts t, spl kind pts t <> Raise OutOfFuel) ->
  forall fuel c S T k, 0 < k -> (Z.to_nat k <= fuel)%nat ->
  emd spl fuel c S T k <> Raise OutOfFuel.
Proof. exact @emd_total. Qed.
Print Assumptions C05_limited_run_ends.

Theorem C05_fuel_irrelevant :
  forall {A} `{Num A} (spl : spline_oracle A) fuel fuel' c S T k,
  (fuel <= fuel')%nat -> emd spl fuel c S T k <> Raise OutOfFuel ->
  emd spl fuel' c S T k = emd spl fuel c S T k.
Proof. exact @emd_mono. Qed.
Print Assumptions C05_fuel_irrelevant.

(** One sifting makes at most MAX_ITERATION - 1 sifts. *)
Theorem C05_sifts_bounded :
  forall {A} `{Num A} (spl : spline_oracle A) fuel c T ext x x' ext' fin,
  sift spl fuel c T 0 0 ext x = Ok (x', ext', fin) ->
  exists l, iterates (one_sift spl c T) (x :: l) /\ last (x :: l) [] = x' /\
            (l = [] \/ zlen l <= MAX_ITERATION c - 1).
Proof. exact (fun A H spl fuel c T ext x x' ext' fin => @sift_bounded A H spl fuel c T 0 0 ext x x' ext' fin (Z.le_refl 0)). Qed.
Print Assumptions C05_sifts_bounded.

(** Without a limit, termination depends on the interpolation: there is one that takes the
    knot values at the knots and for which no number of passes suffices. *)
Theorem C05_unlimited_termination_refuted :
  exists (spl : spline_oracle Qc) c S,
    (forall k pts T r, NoDup (map fst pts) -> spl k pts T = Ok r ->
       length r = length T /\
       forall i x y, In (x, y) pts -> nth_error T i = Some x -> nth_error r i = Some y) /\
    forall fuel, emd spl fuel c S None (-1) = Raise OutOfFuel.
Proof. exact (ex_intro _ spiky_spl (ex_intro _ spiky_cfg (ex_intro _ spiky_S
         (conj spiky_interpolates spiky_diverges)))). Qed.
Print Assumptions C05_unlimited_termination_refuted.

(** ** C06, for every arithmetic *)
Theorem C06_fixe :
  forall {A} `{Num A} (spl : spline_oracle A) fuel c S T k o,
  emd spl fuel c S T k = Ok o -> 0 < FIXE c < MAX_ITERATION c ->
  exists t, emd_time c S T = Ok t /\
  forall i, (i < length (imfs o))%nat ->
  exists l, iterates (one_sift spl c t) (vsub S (sum_rows (length S) (firstn i (imfs o))) :: l) /\
            last l [] = nth i (imfs o) [] /\ zlen l = FIXE c.
Proof. exact @fixe_top. Qed.
Print Assumptions C06_fixe.
Example C06_nonvacuous : exists o, demo_run = Ok o /\ 0 < FIXE demo_fixe < MAX_ITERATION demo_fixe
  /\ (0 < length (imfs o))%nat.
Proof. eexists. vm_compute. repeat split; auto. Qed.

(** ** C07, for every arithmetic *)
Theorem C07_fixe_h :
  forall {A} `{Num A} (spl : spline_oracle A) fuel c S T k o,
  emd spl fuel c S T k = Ok o -> FIXE c = 0 -> 0 < FIXE_H c -> 2 <= MAX_ITERATION c ->
  exists t, emd_time c S T = Ok t /\
  forall i, (i < length (imfs o))%nat ->
  exists l, iterates (one_sift spl c t) (vsub S (sum_rows (length S) (firstn i (imfs o))) :: l) /\
            last l [] = nth i (imfs o) [] /\
            (zlen l = MAX_ITERATION c - 1 \/
             exists x1 l1 l2, l = x1 :: l1 ++ l2 /\ Forall (balanced c t) l2 /\ FIXE_H c <= zlen l2).
Proof. exact @fixe_h_top. Qed.
Print Assumptions C07_fixe_h.
Example C07_nonvacuous : exists o, emd lin_spl 10 demo_fixeh demo_S None 1 = Ok o /\ length (imfs o) = 1%nat
  /\ FIXE demo_fixeh = 0 /\ 0 < FIXE_H demo_fixeh.
Proof. eexists. vm_compute. repeat split. Qed.

(** ** C08, exact arithmetic *)
Theorem C08_default_stop :
  forall (spl : spline_oracle Qc) fuel c S T k o,
  emd spl fuel c S T k = Ok o -> FIXE c = 0 -> FIXE_H c = 0 -> 2 <= MAX_ITERATION c ->
  exists t, emd_time c S T = Ok t /\
  forall i, (i < length (imfs o))%nat ->
  exists l, iterates (one_sift spl c t) (vsub S (sum_rows (length S) (firstn i (imfs o))) :: l) /\
            last l [] = nth i (imfs o) [] /\
            (zlen l = MAX_ITERATION c - 1 \/
             exists l1 x eM em,
               vsub S (sum_rows (length S) (firstn i (imfs o))) :: l = l1 ++ [x; nth i (imfs o) []] /\
               sift_step spl c t x = Ok (nth i (imfs o) [], eM, em) /\
               converged (svar_thr c) (std_thr c) (energy_ratio_thr c) (nth i (imfs o) []) x eM em /\
               balanced c t (nth i (imfs o) [])).
Proof. exact default_top. Qed.
Print Assumptions C08_default_stop.
(** The stop test itself is exactly the documented one. *)
Theorem C08_stop_test :
  forall (c : emd_config Qc) new old eM em, old <> [] ->
  (check_imf c new old eM em = Ok true <->
   converged (svar_thr c) (std_thr c) (energy_ratio_thr c) new old eM em).
Proof. exact check_imf_spec. Qed.
Print Assumptions C08_stop_test.
Example C08_nonvacuous :
  (exists o, emd lin_spl 10 demo_default demo_S None 1 = Ok o /\ length (imfs o) = 1%nat) /\
  FIXE demo_default = 0 /\ FIXE_H demo_default = 0 /\ 2 <= MAX_ITERATION demo_default.
Proof. split; [eexists; vm_compute; split; reflexivity|]. vm_compute. repeat split; discriminate. Qed.

(** ** C09, exact arithmetic *)
Theorem C09_trend :
  forall (spl : spline_oracle Qc) fuel c S T k t e,
  (0 < fuel)%nat -> 2 <= MAX_ITERATION c -> S <> [] ->
  emd_time c S T = Ok t ->
  find_extrema (extrema_detection c) t S = Ok e ->
  zlen (max_pos e) + zlen (min_pos e) <= 2 ->
  exists o, emd spl fuel c S T k = Ok o /\ imfs o = [] /\ residue o = S /\
    ((negligible S /\ out o = []) \/ (~ negligible S /\ out o = [S])).
Proof. exact emd_trend_exact. Qed.
Print Assumptions C09_trend.
Example C09_nonvacuous :
  exists t e, emd_time demo_default (qs [0; 1; 3; 2; 1; 0; 2]) None = Ok t /\
    find_extrema Simple t (qs [0; 1; 3; 2; 1; 0; 2]) = Ok e /\
    zlen (max_pos e) + zlen (min_pos e) = 2.
Proof. eexists _, _. vm_compute. repeat split. Qed.

(** ** C10, for every arithmetic *)
Theorem C10_simple_ignores_time :
  forall {A} `{Num A} (spl : spline_oracle A) fuel c S T T' k,
  extrema_detection c = Simple -> length T = length S -> length T' = length S ->
  emd spl fuel c S (Some T) k = emd spl fuel c S (Some T') k /\
  emd spl fuel c S (Some T) k = emd spl fuel c S None k.
Proof. exact @emd_simple_time. Qed.
Print Assumptions C10_simple_ignores_time.
Theorem C10_wrong_length :
  forall {A} `{Num A} (spl : spline_oracle A) fuel c S T k,
  length T <> length S -> emd spl fuel c S (Some T) k = Raise ValueError.
Proof. exact @emd_bad_length. Qed.
Print Assumptions C10_wrong_length.
(** Even a decreasing or constant time array makes no difference in simple mode, while in
    parabol mode time matters. *)
Example C10_nonvacuous :
  is_ok (emd lin_spl 10 demo_fixe demo_S (Some (map (fun _ => q 7) demo_S)) 1) = true /\
  emd lin_spl 10 demo_parabol demo_S (Some demo_T) 1 <> emd lin_spl 10 demo_parabol demo_S None 1.
Proof. split; vm_compute; [reflexivity|discriminate]. Qed.

(** ** C11, exact arithmetic *)
Theorem C11_normalised_time :
  forall t : list Qc, (2 <= length t)%nat -> increasing t ->
  exists r, normalize_time t = Ok r /\ length r = length t /\ increasing r /\
    nth 0 r 0%Qc = 0%Qc /\
    (forall i, (S i < length t)%nat -> (1 <= nth (S i) r 0 - nth i r 0)%Qc) /\
    (exists i, (S i < length t)%nat /\ (nth (S i) r 0 - nth i r 0 = 1)%Qc).
Proof. exact normalize_increasing. Qed.
Print Assumptions C11_normalised_time.
Theorem C11_affine_invariant :
  forall a b (t : list Qc), (0 < a)%Qc ->
  normalize_time (map (fun x => a * x + b)%Qc t) = normalize_time t.
Proof. exact normalize_affine. Qed.
Print Assumptions C11_affine_invariant.
Theorem C11_repeated_time_rejected :
  forall (t : list Qc) i, (S i < length t)%nat -> nth i t 0%Qc = nth (S i) t 0%Qc ->
  normalize_time t = Raise AssertionError.
Proof. exact normalize_repeated. Qed.
Print Assumptions C11_repeated_time_rejected.
(** For decreasing time the smallest step of the result is not 1. *)
Theorem C11_decreasing_time_refuted :
  exists t r : list Qc,
    (forall i, (S i < length t)%nat -> (nth (S i) t 0 < nth i t 0)%Qc) /\ (2 <= length t)%nat /\
    normalize_time t = Ok r /\
    (exists i, (S i < length t)%nat /\ (0 < nth (S i) r 0 - nth i r 0)%Qc /\
               (nth (S i) r 0 - nth i r 0 < 1)%Qc).
Proof.
  exists (qs [3; 2; 0]). eexists. split.
  - intros [|[|i]] Hi; simpl in *; try lia; reflexivity.
  - split; [simpl; lia|]. split; [vm_compute; reflexivity|].
    exists 0%nat. repeat split; simpl; lia.
Qed.
Print Assumptions C11_decreasing_time_refuted.
Example C11_nonvacuous : increasing demo_T /\ (2 <= length demo_T)%nat.
Proof.
  split; [|simpl; lia]. intros i Hi. do 18 (destruct i; [reflexivity|]). simpl in Hi. lia.
Qed.

(** ** C12, exact arithmetic *)
Theorem C12_time_affine :
  forall (spl : spline_oracle Qc) fuel c S T k a b, (0 < a)%Qc ->
  emd spl fuel c S (Some (map (fun x => a * x + b)%Qc T)) k = emd spl fuel c S (Some T) k.
Proof. exact emd_affine. Qed.
Print Assumptions C12_time_affine.
Example C12_nonvacuous :
  is_ok (emd lin_spl 10 demo_parabol demo_S (Some (map (fun x => q 3 * x + q 5)%Qc demo_T)) 1) = true.
Proof. vm_compute. reflexivity. Qed.

(** ** C13, for every arithmetic *)
(** A history is any list of calls, each with the configuration the object had then. *)
Theorem C13_no_hidden_state :
  forall {A} `{Num A} (spl : spline_oracle A) (h h' : list (call A)) x,
  fst (emd_call spl (call_fuel x) (call_cfg x) (after spl h) (call_S x) (call_T x) (call_max x)) =
  fst (emd_call spl (call_fuel x) (call_cfg x) (after spl h') (call_S x) (call_T x) (call_max x)).
Proof. exact @call_independent. Qed.
Print Assumptions C13_no_hidden_state.
Theorem C13_accessors_report_last_success :
  forall {A} `{Num A} (spl : spline_oracle A) (h : list (call A)),
  get_imfs_and_residue (after spl h) =
  match last_success spl h with
  | Some o => Ok (imfs o, residue o)
  | None => Raise ValueError
  end.
Proof. exact @accessor_spec. Qed.
Print Assumptions C13_accessors_report_last_success.
(** A failing call between two successful ones leaves the result of the first. *)
Example C13_nonvacuous :
  let ok := MkCall 10 demo_fixe demo_S None 1 in
  let bad := MkCall 10 demo_fixe demo_S (Some []) 1 in
  exists o, call_result lin_spl ok = Ok o /\ call_result lin_spl bad = Raise ValueError /\
  get_imfs_and_residue (after lin_spl [bad; ok; bad]) = Ok (imfs o, residue o).
Proof. eexists. split; [|split]; vm_compute; reflexivity. Qed.

(** ** C14, exact arithmetic *)
Theorem C14_imfs_and_trend :
  forall (spl : spline_oracle Qc) fuel c S T k o i t,
  emd spl fuel c S T k = Ok o ->
  get_imfs_and_trend (MkState (Some (imfs o)) (Some (residue o))) = Ok (i, t) ->
  forall j, (j < length S)%nat -> within tol (nth j S 0%Qc - total_at (i ++ [t]) j)%Qc.
Proof. exact trend_sum. Qed.
Print Assumptions C14_imfs_and_trend.
Theorem C14_trend_cases :
  forall (spl : spline_oracle Qc) fuel c S T k o,
  emd spl fuel c S T k = Ok o ->
  let st := MkState (Some (imfs o)) (Some (residue o)) in
  match get_imfs_and_trend st with
  | Ok (i, t) =>
      (negligible (residue o) /\ imfs o = i ++ [t]) \/
      (~ negligible (residue o) /\ i = imfs o /\ t = residue o)
  | Raise e => e = IndexError /\ imfs o = [] /\ negligible (residue o)
  end.
Proof. exact trend_spec. Qed.
Print Assumptions C14_trend_cases.
(** The accessor can fail after a successful decomposition. *)
Theorem C14_trend_available_refuted :
  exists (S : list Qc) o,
    emd lin_spl 10 demo_default S None (-1) = Ok o /\
    get_imfs_and_trend (MkState (Some (imfs o)) (Some (residue o))) = Raise IndexError.
Proof. exists (qs [0; 0; 0]). eexists. vm_compute. split; reflexivity. Qed.
Print Assumptions C14_trend_available_refuted.
Example C14_nonvacuous : exists o i t, demo_run = Ok o /\
  get_imfs_and_trend (MkState (Some (imfs o)) (Some (residue o))) = Ok (i, t) /\ length i = 3%nat.
Proof. eexists _, _, _. vm_compute. repeat split. Qed.

(** ** C52, for every arithmetic: why a decomposition stops *)
Theorem C52_stop_reasons :
  forall {A} `{Num A} (spl : spline_oracle A) fuel c S T k o,
  emd spl fuel c S T k = Ok o ->
  exists t M last_row e0 e1 fin,
    emd_time c S T = Ok t /\
    sift spl (sift_fuel c) c t 0 0 e0 (vsub S (sum_rows (length S) M)) = Ok (last_row, e1, fin) /\
    (imfs o = M \/ imfs o = M ++ [last_row]) /\
    (imfs o = M <-> e1 <= 2) /\
    (end_condition c S (M ++ [last_row]) = Ok true \/ zlen M + 1 = k \/ e1 <= 2).
Proof. exact @stop_top. Qed.
Print Assumptions C52_stop_reasons.
Theorem C52_end_condition :
  forall (c : emd_config Qc) S IMF, S <> [] -> shaped (length S) IMF ->
  exists b, end_condition c S IMF = Ok b /\
  (b = true <->
   exists r, length r = length S /\
     (forall i, (i < length S)%nat -> nth i r 0%Qc = (nth i S 0 - total_at IMF i)%Qc) /\
     ((exists hi lo, greatest hi r /\ least lo r /\ (hi - lo < range_thr c)%Qc) \/
      (total (map Qc_abs r) < total_power_thr c)%Qc)).
Proof. exact end_condition_spec. Qed.
Print Assumptions C52_end_condition.
Example C52_nonvacuous : is_ok demo_run = true /\ demo_S <> [] /\ shaped (length demo_S) [demo_S].
Proof.
  split; [vm_compute; reflexivity|]. split; [discriminate|]. constructor; [reflexivity|constructor].
Qed.

(** ** C53, exact arithmetic: a sift subtracts the mean of the two envelopes *)
Theorem C53_sift_subtracts_mean :
  forall (spl : spline_oracle Qc) c t x y,
  one_sift spl c t x y ->
  exists e maxe mine up lo,
    find_extrema (extrema_detection c) t x = Ok e /\
    3 <= zlen (max_pos e) + zlen (min_pos e) /\
    prepare_points (extrema_detection c) (nbsym c) t x e = Ok (maxe, mine) /\
    spline_points spl (spline_kind c) t maxe = Ok up /\
    spline_points spl (spline_kind c) t mine = Ok lo /\
    length y = length x /\
    (length up = length x -> length lo = length x ->
     forall i, (i < length x)%nat ->
       nth i y 0%Qc = (nth i x 0 - (nth i up 0 + nth i lo 0) / Qc_ofZ 2)%Qc).
Proof. exact one_sift_mean. Qed.
Print Assumptions C53_sift_subtracts_mean.
Example C53_nonvacuous :
  exists y, one_sift lin_spl demo_default (map Qc_ofZ (zseq 0 19)) demo_S y.
Proof. eexists. unfold one_sift. eexists _, _. vm_compute. reflexivity. Qed.
