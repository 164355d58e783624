(** * Props_Eemd: properties C28-C33 of [EEMD.eemd].

    [gen] is an arbitrary random generator, [dec] the object used for each trial (PyEMD's EMD
    in the corollaries), [o] an arbitrary state of the EEMD object: any history. *)
From Verif Require Import PyFacts QcFacts Eemd Spec EemdSpec Demo EmdProofs EmdExact EemdProofs EemdExact.
From Coq Require Import QArith Qcanon.
Open Scope Z_scope.

(** A small deterministic generator for the examples: the state counts the draws. *)
Definition demo_gen : generator Qc Z :=
  MkGen (fun g s n => (map (fun i => (s * Qc_ofZ ((3 * g + 5 * i + i * i) mod 7 - 3))%Qc) (zseq 0 n), g + 1))
        (fun g lo hi n => (map (fun i => (lo + (hi - lo) * nlit ((3 * g + 5 * i + i * i) mod 7) 7)%Qc) (zseq 0 n), g + 1))
        (fun s => 100 * s).
Lemma demo_sized : sized demo_gen.
Proof. intros g s n. cbn. rewrite map_length, zseq_length. split; auto. intros. rewrite map_length, zseq_length. auto. Qed.
Lemma demo_quiet : quiet demo_gen.
Proof.
  intros g n. cbn. rewrite <- (zseq_length 0 n) at 2 4. generalize (zseq 0 n). intros l.
  split; induction l as [|x l IH]; cbn; auto; rewrite IH; f_equal; ring.
Qed.
Definition demo_dec := emd_decomposer lin_spl 10 demo_fixe.
Definition demo_obj : eemd_state Qc Z (emd_state Qc) := MkESt 0 emd_init None None [].
Definition demo_ecfg (n : Z) (sep par : bool) (procs : Z) : eemd_config Qc :=
  MkECfg n (nlit 1 10) sep Normal par procs.
Definition short_S : list Qc := qs [0; -3; 1; 4; 3; 2; -2; 0; 1].

(** ** C28 *)
Theorem C28_ensemble_means :
  forall G D (gen : generator Qc G) (dec : decomposer Qc D),
  sized gen -> shapely dec ->
  forall c o S T k E o', separate_trends c = false ->
  eemd gen dec c o S T k = (Ok E, o') ->
  exists T' w noises rs, spread S w /\
    match T with Some t => T' = t | None => timeline (length S) = Ok T' end /\
    length noises = Z.to_nat (trials c) /\ length rs = Z.to_nat (trials c) /\
    noise_of gen c o o' S w noises /\
    (forall i r, nth_error rs i = Some r ->
       exists X d d', noisy S (nth i noises []) X /\ run dec d X T' k = (Ok r, d')) /\
    length E = fold_right Nat.max O (map (@length _) rs) /\
    length (ensemble_count (all_imfs o')) = length E /\
    (forall j, (j < length E)%nat ->
       is_mean (length S) (column j rs) (nth j E []) /\
       nth j (ensemble_count (all_imfs o')) 0 = zlen (filter (fun r => Nat.ltb j (length r)) rs) /\
       0 < nth j (ensemble_count (all_imfs o')) 0) /\
    (forall j, (Datatypes.S j < length E)%nat ->
       nth (Datatypes.S j) (ensemble_count (all_imfs o')) 0 <= nth j (ensemble_count (all_imfs o')) 0).
Proof. exact @eemd_means. Qed.
Print Assumptions C28_ensemble_means.

(** EMD is such a decomposer; its result for a trial is what [EMD.emd] returns. *)
Theorem C28_emd_decomposes :
  forall (spl : spline_oracle Qc) fuel cfg,
  shapely (emd_decomposer spl fuel cfg) /\
  forall d X T k r d', run (emd_decomposer spl fuel cfg) d X T k = (Ok r, d') ->
    exists o, emd spl fuel cfg X (Some T) k = Ok o /\ r = out o.
Proof. exact (fun spl fuel cfg => conj (emd_shapely spl fuel cfg) (emd_decomposer_run spl fuel cfg)). Qed.
Print Assumptions C28_emd_decomposes.

(** Three trials, the ensemble is ragged. *)
Example C28_nonvacuous : exists E o', sized demo_gen /\ shapely demo_dec /\
  eemd demo_gen demo_dec (demo_ecfg 3 false false 1) demo_obj short_S None (-1) = (Ok E, o') /\
  ensemble_count (all_imfs o') = [3; 3; 1] /\ length E = 3%nat.
Proof.
  do 2 eexists. split; [exact demo_sized|]. split; [apply emd_shapely|]. vm_compute. repeat split.
Qed.

(** ** C29 *)
Theorem C29_components_and_residue :
  forall G D (gen : generator Qc G) (dec : decomposer Qc D),
  sized gen -> shapely dec ->
  forall c o S T k E o', eemd gen dec c o S T k = (Ok E, o') ->
  exists r, eemd_imfs_and_residue o' = Ok (E, r) /\ length r = length S /\ adds_up (E ++ [r]) S.
Proof. exact @eemd_adds_up. Qed.
Print Assumptions C29_components_and_residue.
(** Also without any trial: then the residue is the whole signal. *)
Example C29_nonvacuous : exists o', sized demo_gen /\ shapely demo_dec /\
  eemd demo_gen demo_dec (demo_ecfg 0 false false 1) demo_obj short_S None (-1) = (Ok [], o') /\
  eemd_imfs_and_residue o' = Ok ([], short_S).
Proof. eexists. split; [exact demo_sized|]. split; [apply emd_shapely|]. vm_compute. repeat split. Qed.

(** ** C30 *)
Theorem C30_without_noise :
  forall G (gen : generator Qc G) (spl : spline_oracle Qc) fuel cfg c o S T k,
  quiet gen -> S <> [] -> noise_kind c <> OtherNoise ->
  0 < trials c -> (parallel c = true -> 1 <= processes c) -> separate_trends c = false ->
  (noise_width c = 0%Qc \/ forall x y, In x S -> In y S -> x = y) ->
  fst (eemd gen (emd_decomposer spl fuel cfg) c o S T k) =
    match emd spl fuel cfg S T k with Ok r => Ok (out r) | Raise e => Raise e end.
Proof. exact @eemd_quiet. Qed.
Print Assumptions C30_without_noise.
Example C30_nonvacuous : quiet demo_gen /\ exists o,
  emd lin_spl 10 demo_fixe short_S None (-1) = Ok o /\ length (out o) = 2%nat.
Proof. split; [exact demo_quiet|]. eexists. vm_compute. repeat split. Qed.

(** ** C31, for every arithmetic, serial or parallel *)
Theorem C31_seeded_runs_agree :
  forall {A} `{Num A} {G D} (gen : generator A G) (dec : decomposer A D) c s o1 o2 S T k,
  forgetful dec ->
  let x1 := eemd gen dec c (noise_seed gen o1 s) S T k in
  let x2 := eemd gen dec c (noise_seed gen o2 s) S T k in
  fst x1 = fst x2 /\
  forall E, fst x1 = Ok E -> eemd_imfs_and_residue (snd x1) = eemd_imfs_and_residue (snd x2) /\
    all_imfs (snd x1) = all_imfs (snd x2).
Proof. exact @eemd_seeded. Qed.
Print Assumptions C31_seeded_runs_agree.
Theorem C31_emd_forgets :
  forall {A} `{Num A} (spl : spline_oracle A) fuel (cfg : emd_config A),
  forgetful (emd_decomposer spl fuel cfg).
Proof. exact @emd_forgetful. Qed.
Print Assumptions C31_emd_forgets.
(** Without seeding again, a second serial run differs. *)
Example C31_nonvacuous :
  let run o := eemd demo_gen demo_dec (demo_ecfg 2 false false 1) o short_S None (-1) in
  let o1 := noise_seed demo_gen demo_obj 1 in
  fst (run (snd (run o1))) <> fst (run o1) /\
  fst (run (noise_seed demo_gen (snd (run o1)) 1)) = fst (run o1).
Proof.
  cbv zeta. split; [vm_compute; discriminate|]. apply C31_seeded_runs_agree. apply C31_emd_forgets.
Qed.

(** ** C32 *)
(** Serially, the trials use consecutive draws and the generator ends where they ended. *)
Theorem C32_serial_noise :
  forall G D (gen : generator Qc G) (dec : decomposer Qc D),
  sized gen -> shapely dec ->
  forall c o S T k E o', separate_trends c = false -> parallel c = false ->
  eemd gen dec c o S T k = (Ok E, o') ->
  exists T' w noises rs, spread S w /\ length noises = Z.to_nat (trials c) /\ length rs = Z.to_nat (trials c) /\
    noise_stream gen (noise_kind c) (noise_width c * w)%Qc (length S) (random o) noises (random o') /\
    forall i r, nth_error rs i = Some r ->
       exists X d d', noisy S (nth i noises []) X /\ run dec d X T' k = (Ok r, d').
Proof. exact @eemd_serial_noise. Qed.
Print Assumptions C32_serial_noise.

(** In parallel, up to [4 * processes] trials are all the same trial ... *)
Theorem C32_parallel_trials_coincide :
  forall G D (gen : generator Qc G) (dec : decomposer Qc D) c o S T k par,
  sized gen -> shapely dec ->
  parallel c = true -> 1 <= processes c -> 0 < trials c <= 4 * processes c -> separate_trends c = false ->
  fst (eemd gen dec c o S T k) =
  fst (eemd gen dec (MkECfg 1 (noise_width c) false (noise_kind c) par (processes c)) o S T k).
Proof. exact @eemd_parallel_one. Qed.
Print Assumptions C32_parallel_trials_coincide.
(** ... and every later call repeats the same noise. *)
Theorem C32_parallel_calls_coincide :
  forall {A} `{Num A} {G D} (gen : generator A G) (dec : decomposer A D) c o S T k,
  forgetful dec -> parallel c = true ->
  fst (eemd gen dec c (snd (eemd gen dec c o S T k)) S T k) = fst (eemd gen dec c o S T k).
Proof. exact @eemd_again. Qed.
Print Assumptions C32_parallel_calls_coincide.

(** So the claim that trials use independent noise fails in parallel mode, the default: four
    trials give the rows of one noisy trial, and not the serial ensemble. *)
Theorem C32_independent_trials_refuted :
  exists (gen : generator Qc Z) (dec : decomposer Qc (emd_state Qc)) o S E1 E4,
  fst (eemd gen dec (demo_ecfg 4 false true 2) o S None (-1)) = Ok E1 /\
  fst (eemd gen dec (demo_ecfg 1 false false 2) o S None (-1)) = Ok E1 /\
  fst (eemd gen dec (demo_ecfg 4 false false 2) o S None (-1)) = Ok E4 /\ E4 <> E1.
Proof.
  exists demo_gen, demo_dec, demo_obj, short_S. do 2 eexists.
  split; [vm_compute; reflexivity|]. split; [vm_compute; reflexivity|]. split; [vm_compute; reflexivity|].
  vm_compute; discriminate.
Qed.
Print Assumptions C32_independent_trials_refuted.

(** ** C33 *)
Theorem C33_trend_last :
  forall G D (gen : generator Qc G) (dec : decomposer Qc D),
  sized gen -> shapely dec ->
  forall c o S T k E o', separate_trends c = true -> 0 < trials c ->
  eemd gen dec c o S T k = (Ok E, o') ->
  exists T' w noises rs, spread S w /\
    match T with Some t => T' = t | None => timeline (length S) = Ok T' end /\
    length noises = Z.to_nat (trials c) /\ length rs = Z.to_nat (trials c) /\
    noise_of gen c o o' S w noises /\
    (forall i x, nth_error rs i = Some x -> exists X d d' all,
       noisy S (nth i noises []) X /\ run dec d X T' k = (Ok all, d') /\ trend_of dec d' = Ok x) /\
    exists means, E = means ++ [last E []] /\
      is_mean (length S) (map snd rs) (last E []) /\
      length means = fold_right Nat.max O (map (fun x => length (fst x)) rs) /\
      (forall j, (j < length means)%nat -> is_mean (length S) (column j (map fst rs)) (nth j means [])) /\
      ensemble_count (all_imfs o') =
        map (fun j => zlen (filter (fun x => Nat.ltb j (length (fst x))) rs)) (seq 0 (length means)) ++ [trials c].
Proof. exact @eemd_trends. Qed.
Print Assumptions C33_trend_last.
Example C33_nonvacuous : exists E o',
  eemd demo_gen demo_dec (demo_ecfg 3 true false 1) demo_obj short_S None (-1) = (Ok E, o') /\
  ensemble_count (all_imfs o') = [3; 1; 3].
Proof. do 2 eexists. vm_compute. repeat split. Qed.
