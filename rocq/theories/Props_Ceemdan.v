(** * Props_Ceemdan: properties C34-C37 and C55-C57 of [CEEMDAN.ceemdan].

    [gen] is an arbitrary generator, [std] an arbitrary standard deviation, [emd_of] an
    arbitrary decomposition (PyEMD's EMD where stated), [arrival] an arbitrary schedule of the
    workers, [o] an arbitrary state of the CEEMDAN object.

    NumPy turns a division by zero into NaN where the model divides exactly (x / 0 = 0); the
    statements exclude it for the signal's standard deviation and for the number of trials.
    With [beta_progress] they speak of runs in which no first noise mode has zero deviation. *)
From Verif Require Import PyFacts QcFacts Ceemdan Spec EemdSpec CeemdanSpec Demo EmdExact EemdExact
  CeemdanProofs CeemdanExact Props_Eemd.
From Coq Require Import QArith Qcanon Permutation.
Open Scope Z_scope.

(** For the examples: a homogeneous "deviation", two trials, EMD with the linear spline. *)
Definition demo_std (S : list Qc) : Qc := (total (map Qc_abs S) / Qc_ofZ 10)%Qc.
Definition demo_emd := emd_fun lin_spl 10 demo_fixe.
Definition demo_ccfg (trials : Z) (scale : Qc) (beta par : bool) : ceemdan_config Qc :=
  MkCCfg trials (nlit 1 200) scale (nlit 1 100) (nlit 5 100) beta Normal 3 par 2.
Definition demo_cst : ceemdan_state Qc Z := MkCSt 0 None None.
Definition demo_ceemdan c o S k := ceemdan demo_gen demo_std demo_emd (@rev _) c o S None k.

(** ** C34 *)
Theorem C34_components_add_up :
  forall G (gen : generator Qc G) std emd_of arrival c o S T k C o',
  std S <> 0%Qc ->
  ceemdan gen std emd_of arrival c o S T k = (Ok C, o') ->
  adds_up C S /\ shaped (length S) C /\
  exists r, ceemdan_imfs_and_residue o' = Ok (C, r) /\ r = repeat 0%Qc (length S).
Proof. exact @ceemdan_spec. Qed.
Print Assumptions C34_components_add_up.
Example C34_nonvacuous : demo_std short_S <> 0%Qc /\
  match demo_ceemdan (demo_ccfg 2 1%Qc true true) demo_cst short_S (-1) with
  | (Ok C, _) => length C | _ => O end = 2%nat.
Proof. split; [vm_compute; discriminate|vm_compute; reflexivity]. Qed.

(** ** C35, for every arithmetic *)
Theorem C35_row_count :
  forall {A} `{Num A} {G} (gen : generator A G) std emd_of arrival c o S T k C o',
  ceemdan gen std emd_of arrival c o S T k = (Ok C, o') ->
  2 <= zlen C <= Z.max 0 (loop_limit c) + 2 /\ (1 <= k -> zlen C <= k + 1).
Proof. exact @ceemdan_count. Qed.
Print Assumptions C35_row_count.
(** Why it stops: the constructor's [max_imf] turns, the call's [max_imf] components, or the
    last row, in units of the deviation, does not split any further or is small. *)
Theorem C35_stop_reasons :
  forall G (gen : generator Qc G) std emd_of arrival c o S T k C o', S <> [] -> std S <> 0%Qc ->
  ceemdan gen std emd_of arrival c o S T k = (Ok C, o') ->
  exists r, length r = length S /\ last C [] = map (fun x => (x * std S)%Qc) r /\
  (zlen C = Z.max 0 (loop_limit c) + 2 \/ (1 <= k /\ zlen C = k + 1) \/
   exists D, emd_of r None 1 = Ok D /\
     (zlen D = 1 \/
      (exists hi lo, greatest hi r /\ least lo r /\ (hi - lo < c_range_thr c)%Qc) \/
      (total (map Qc_abs r) < c_total_power_thr c)%Qc)).
Proof. exact (fun G gen std emd_of arrival c o S T k C o' H _ => @ceemdan_stop G gen std emd_of arrival c o S T k C o' H). Qed.
Print Assumptions C35_stop_reasons.
Example C35_nonvacuous :
  match demo_ceemdan (demo_ccfg 2 1%Qc true false) demo_cst short_S 1 with
  | (Ok C, _) => length C | _ => O end = 2%nat.
Proof. vm_compute. reflexivity. Qed.

(** ** C36 *)
Theorem C36_schedule_does_not_matter :
  forall G (gen : generator Qc G) std emd_of arrival1 arrival2 c o S T k,
  reorders arrival1 -> reorders arrival2 ->
  (c_parallel c = true -> 1 <= c_processes c) ->
  ceemdan gen std emd_of arrival1 c o S T k = ceemdan gen std emd_of arrival2 c o S T k.
Proof. exact @ceemdan_schedules. Qed.
Print Assumptions C36_schedule_does_not_matter.
(** Nor does running serially: unlike EEMD, the noise is drawn before the work is shared out. *)
Theorem C36_parallel_equals_serial :
  forall G (gen : generator Qc G) std emd_of arrival1 arrival2 c1 c2 o S T k,
  reorders arrival1 -> reorders arrival2 ->
  c_parallel c1 = true -> 1 <= c_processes c1 ->
  c2 = MkCCfg (c_trials c1) (epsilon c1) (noise_scale c1) (c_range_thr c1) (c_total_power_thr c1)
              (beta_progress c1) (c_noise_kind c1) (loop_limit c1) false (c_processes c1) ->
  ceemdan gen std emd_of arrival1 c1 o S T k = ceemdan gen std emd_of arrival2 c2 o S T k.
Proof. exact @ceemdan_parallel_serial. Qed.
Print Assumptions C36_parallel_equals_serial.
Example C36_nonvacuous : reorders (@rev _) /\ reorders (fun l => l).
Proof. split; intros l; [apply Permutation_rev|apply Permutation_refl]. Qed.

(** ** C37 *)
(** With noise of scale 0, and EMD inside, no call succeeds. *)
Theorem C37_zero_noise_fails :
  forall G (gen : generator Qc G) std spl fuel cfg arrival c o S T k,
  quiet gen -> noise_scale c = 0%Qc -> c_noise_kind c <> OtherNoise -> 0 < c_trials c ->
  (c_parallel c = true -> 1 <= c_processes c) -> (2 <= length S)%nat ->
  extrema_detection cfg <> OtherDetection -> 2 <= MAX_ITERATION cfg -> (0 < fuel)%nat ->
  fst (ceemdan gen std (emd_fun spl fuel cfg) arrival c o S T k) = Raise IndexError.
Proof. exact @ceemdan_quiet. Qed.
Print Assumptions C37_zero_noise_fails.
(** The same call succeeds with a little noise. *)
Theorem C37_any_scale_refuted :
  exists (gen : generator Qc Z) std emd_of arrival c0 c1 o S C,
  noise_scale c0 = 0%Qc /\ (0 < noise_scale c1)%Qc /\
  fst (ceemdan gen std emd_of arrival c0 o S None (-1)) = Raise IndexError /\
  fst (ceemdan gen std emd_of arrival c1 o S None (-1)) = Ok C.
Proof.
  exists demo_gen, demo_std, demo_emd, (@rev _), (demo_ccfg 2 0%Qc true false), (demo_ccfg 2 1%Qc true false), demo_cst, short_S.
  eexists. split; [reflexivity|]. split; [reflexivity|].
  split; [apply C37_zero_noise_fails; try reflexivity; try discriminate; [exact demo_quiet|cbn; lia|lia]|].
  vm_compute. reflexivity.
Qed.
Print Assumptions C37_any_scale_refuted.

(** ** C55, for every arithmetic *)
Theorem C55_seeded_runs_agree :
  forall {A} `{Num A} {G} (gen : generator A G) std emd_of arrival c s o1 o2 S T k,
  let x1 := ceemdan gen std emd_of arrival c (c_noise_seed gen o1 s) S T k in
  let x2 := ceemdan gen std emd_of arrival c (c_noise_seed gen o2 s) S T k in
  fst x1 = fst x2 /\
  forall C, fst x1 = Ok C -> ceemdan_imfs_and_residue (snd x1) = ceemdan_imfs_and_residue (snd x2).
Proof. exact @ceemdan_seeded. Qed.
Print Assumptions C55_seeded_runs_agree.
(** Without seeding again, a second run differs. *)
Example C55_nonvacuous :
  let run o := demo_ceemdan (demo_ccfg 2 1%Qc true true) o short_S (-1) in
  let o1 := c_noise_seed demo_gen demo_cst 1 in
  match fst (run o1), fst (run (snd (run o1))) with
  | Ok C1, Ok C2 => map (map this) C1 <> map (map this) C2 | _, _ => False end.
Proof. vm_compute. discriminate. Qed.

(** ** C56 *)
Theorem C56_unit_of_measurement :
  forall G (gen : generator Qc G) std emd_of arrival c o S T k a, (0 < a)%Qc -> std S <> 0%Qc ->
  std (map (fun x => (a * x)%Qc) S) = (a * std S)%Qc ->
  fst (ceemdan gen std emd_of arrival c o (map (fun x => (a * x)%Qc) S) T k) =
  match fst (ceemdan gen std emd_of arrival c o S T k) with
  | Ok C => Ok (map (map (fun x => (a * x)%Qc)) C)
  | Raise e => Raise e
  end.
Proof. exact (fun G gen std emd_of arrival c o S T k a Ha _ => @ceemdan_scale G gen std emd_of arrival c o S T k a Ha). Qed.
Print Assumptions C56_unit_of_measurement.
Example C56_nonvacuous :
  demo_std (map (fun x => (nlit 7 3 * x)%Qc) short_S) = (nlit 7 3 * demo_std short_S)%Qc.
Proof. apply Qc_is_canon. vm_compute. reflexivity. Qed.

(** ** C57: the documented recurrence.  [noises] is drawn once, and advances the generator; its
    modes are used by all components; the first component is the mean of the first rows; each
    later one is what the remainder loses. *)
Theorem C57_recurrence :
  forall G (gen : generator Qc G) std emd_of, fits emd_of ->
  forall arrival c o S T k C o', std S <> 0%Qc -> sized gen -> reorders arrival ->
  (c_parallel c = true -> 1 <= c_processes c) -> 0 < c_trials c ->
  ceemdan gen std emd_of arrival c o S T k = (Ok C, o') ->
  let S1 := map (fun x => (x / std S)%Qc) S in
  exists noises modes t parts c1 cs r,
    draws gen (c_noise_kind c) (noise_scale c) (Z.to_nat (c_trials c) * length S) (c_random o) (concat noises) (c_random o') /\
    zlen noises = c_trials c /\ shaped (length S) noises /\
    Forall2 (modes_of std emd_of (beta_progress c)) noises modes /\
    match T with Some t' => t = t' | None => t = map Qc_ofZ (zseq 0 (length S)) end /\
    Forall2 (first_part emd_of (epsilon c) S1 t) modes parts /\ is_mean (length S) parts c1 /\
    (exists r1, noisy c1 r1 S1 /\ chain std emd_of (epsilon c) T modes 1 r1 cs) /\
    adds_up (c1 :: cs ++ [r]) S1 /\ length r = length S /\
    C = map (map (fun x => (x * std S)%Qc)) (c1 :: cs ++ [r]).
Proof. exact (fun G gen std emd_of Hf arrival c o S T k C o' _ => @ceemdan_components G gen std emd_of Hf arrival c o S T k C o'). Qed.
Print Assumptions C57_recurrence.
Theorem C57_emd_fits : forall (spl : spline_oracle Qc) fuel cfg, fits (emd_fun spl fuel cfg).
Proof. exact emd_fits. Qed.
Print Assumptions C57_emd_fits.
(** Two trials; a second component is computed. *)
Example C57_nonvacuous : let S := qs [0; 2; 0; 6; 4; 6; 0; 2; 0; 6; 4] in
  demo_std S <> 0%Qc /\ sized demo_gen /\ fits demo_emd /\
  match demo_ceemdan (demo_ccfg 2 1%Qc true true) demo_cst S 2 with
  | (Ok C, _) => length C | _ => O end = 3%nat.
Proof. split; [vm_compute; discriminate|]. split; [exact demo_sized|]. split; [apply emd_fits|]. vm_compute. reflexivity. Qed.
