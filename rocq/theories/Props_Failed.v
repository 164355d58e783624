(** * Props_Failed: property C88, EEMD and CEEMDAN objects used again after a run that raised.

    [act], [after_all] and [all_raise] are in [FailedSpec]: a program seeds one object and runs it,
    with settings and inputs that change freely; runs that raise are caught. *)
From Verif Require Import PyFacts QcFacts Eemd Ceemdan Spec EemdSpec CeemdanSpec FailedSpec Demo
  EmdProofs EmdExact EemdProofs EemdExact CeemdanProofs Failed Props_Eemd Props_Ceemdan.
From Coq Require Import QArith Qcanon.
Open Scope Z_scope.

(** ** [get_imfs_and_residue] reports the last run that ended, whatever raised since. *)
Theorem C88_eemd_last_run :
  forall G D (gen : generator Qc G) (dec : decomposer Qc D), sized gen -> shapely dec ->
  forall o before c S T k E o' more,
  eemd gen dec c (after_all (noise_seed gen) (eemd gen dec) o before) S T k = (Ok E, o') ->
  all_raise (noise_seed gen) (eemd gen dec) o' more ->
  exists r, eemd_imfs_and_residue
      (after_all (noise_seed gen) (eemd gen dec) o (before ++ Go c S T k :: more)) = Ok (E, r) /\
    length r = length S /\ adds_up (E ++ [r]) S.
Proof. exact @eemd_last_run. Qed.
Print Assumptions C88_eemd_last_run.

(** If no run has ended, it reports what it did at first; on a new object, that there is nothing. *)
Theorem C88_eemd_no_run :
  forall G D (gen : generator Qc G) (dec : decomposer Qc D), sized gen -> shapely dec ->
  forall o acts, all_raise (noise_seed gen) (eemd gen dec) o acts ->
  eemd_imfs_and_residue (after_all (noise_seed gen) (eemd gen dec) o acts) = eemd_imfs_and_residue o.
Proof. exact @eemd_no_run. Qed.
Print Assumptions C88_eemd_no_run.

Theorem C88_ceemdan_last_run :
  forall G (gen : generator Qc G) std emd_of arrival o before c S T k C o' more, std S <> 0%Qc ->
  ceemdan gen std emd_of arrival c
    (after_all (c_noise_seed gen) (ceemdan gen std emd_of arrival) o before) S T k = (Ok C, o') ->
  all_raise (c_noise_seed gen) (ceemdan gen std emd_of arrival) o' more ->
  exists r, ceemdan_imfs_and_residue
      (after_all (c_noise_seed gen) (ceemdan gen std emd_of arrival) o (before ++ Go c S T k :: more)) = Ok (C, r) /\
    r = repeat 0%Qc (length S) /\ adds_up C S.
Proof. exact @ceemdan_last_run. Qed.
Print Assumptions C88_ceemdan_last_run.
Theorem C88_ceemdan_no_run :
  forall G (gen : generator Qc G) std emd_of arrival o acts,
  all_raise (c_noise_seed gen) (ceemdan gen std emd_of arrival) o acts ->
  ceemdan_imfs_and_residue (after_all (c_noise_seed gen) (ceemdan gen std emd_of arrival) o acts) =
  ceemdan_imfs_and_residue o.
Proof. exact @ceemdan_no_run. Qed.
Print Assumptions C88_ceemdan_no_run.

(** ** The rest of the object *)
(** A parallel EEMD run that raises leaves everything as it was. *)
Theorem C88_eemd_parallel_failed :
  forall G D (gen : generator Qc G) (dec : decomposer Qc D), sized gen -> shapely dec ->
  forall c o S T k e o', parallel c = true -> eemd gen dec c o S T k = (Raise e, o') -> o' = o.
Proof. exact @eemd_parallel_failed. Qed.
Print Assumptions C88_eemd_parallel_failed.

(** A serial one raises before the first trial, and leaves everything as it was, or in a trial:
    then [all_imfs] holds the rows of the trials before that one, numbered from 0, and the
    generator has made one draw for each of them and one for the trial that raised. *)
Theorem C88_eemd_failed_ensemble :
  forall G D (gen : generator Qc G) (dec : decomposer Qc D), sized gen -> shapely dec ->
  forall c o S T k e o',
  parallel c = false -> separate_trends c = false -> noise_kind c <> OtherNoise ->
  eemd gen dec c o S T k = (Raise e, o') -> o' = o \/
  exists T' w noises last rs, spread S w /\
    match T with Some t => T' = t | None => timeline (length S) = Ok T' end /\
    serial_noise gen (noise_kind c) (noise_width c * w)%Qc (length S) (random o) (random o') (noises ++ [last]) /\
    length noises = length rs /\ (length rs < Z.to_nat (trials c))%nat /\
    (forall i r, nth_error rs i = Some r ->
       exists X d d', noisy S (nth i noises []) X /\ run dec d X T' k = (Ok r, d')) /\
    (exists X d, noisy S last X /\ run dec d X T' k = (Raise e, inner o')) /\
    map fst (all_imfs o') = zseq 0 (fold_right Nat.max O (map (@length _) rs)) /\
    forall j p, nth_error (all_imfs o') j = Some p -> snd p = column j rs.
Proof. exact @eemd_failed_ensemble. Qed.
Print Assumptions C88_eemd_failed_ensemble.

(** ** Examples *)
(** An [ext_EMD] that refuses signals starting below 0.  The program runs it three times: the first
    and the last run raise; the last one in its second trial, so the ensemble counts one row while
    the result reported is that of the run before.  So the results and the ensemble an object
    reports need not belong to the same run. *)
Definition fussy : decomposer Qc nat :=
  MkDec (fun d S T k => (if nltb (nth 0 S 0%Qc) 0%Qc then Raise ValueError else Ok [S], Datatypes.S d))
        (fun d => Raise ValueError).
Lemma fussy_shapely : shapely fussy.
Proof.
  intros d S T k imfs d'. cbn [run fussy trend_of]. destruct (nltb _ _); [discriminate|].
  intros X. injection X as <- <-. split; [repeat constructor|discriminate].
Qed.
Definition fussy_obj : eemd_state Qc Z nat := MkESt 0 O None None [].
Definition wide (n : Z) : eemd_config Qc := MkECfg n 1%Qc false Normal false 1.
Example C88_nonvacuous :
  let bad := Go (wide 3) (qs [1; 0; 2]) None (-1) in
  let o := after_all (noise_seed demo_gen) (eemd demo_gen fussy) fussy_obj [bad; Seed 4] in
  sized demo_gen /\ shapely fussy /\
  all_raise (noise_seed demo_gen) (eemd demo_gen fussy) fussy_obj [bad; Seed 4] /\
  exists E o', eemd demo_gen fussy (wide 2) o (qs [40; 10; 20]) None (-1) = (Ok E, o') /\
     ensemble_count (all_imfs o') = [2] /\
     all_raise (noise_seed demo_gen) (eemd demo_gen fussy) o' [Seed 1; bad] /\
     let o'' := after_all (noise_seed demo_gen) (eemd demo_gen fussy) o' [Seed 1; bad] in
     random o'' = 102 /\ ensemble_count (all_imfs o'') = [1].
Proof.
  cbv zeta. split; [exact demo_sized|]. split; [exact fussy_shapely|].
  split; [vm_compute; eauto|]. do 2 eexists. vm_compute. repeat split; eauto.
Qed.
(** CEEMDAN: a run that ends, then one with time stamps of a wrong length. *)
Example C88_ceemdan_nonvacuous :
  let run := ceemdan demo_gen demo_std demo_emd (@rev _) in
  demo_std short_S <> 0%Qc /\
  exists C o', run (demo_ccfg 2 1%Qc true true) demo_cst short_S None (-1) = (Ok C, o') /\ length C = 2%nat /\
    all_raise (c_noise_seed demo_gen) run o' [Go (demo_ccfg 2 1%Qc true true) short_S (Some [0%Qc]) (-1)].
Proof.
  cbv zeta. split; [vm_compute; discriminate|].
  destruct (ceemdan demo_gen demo_std demo_emd (@rev _) (demo_ccfg 2 1%Qc true true) demo_cst short_S None (-1))
    as [[C|e] o'] eqn:E.
  - exists C, o'. split; [reflexivity|].
    assert (X : match ceemdan demo_gen demo_std demo_emd (@rev _) (demo_ccfg 2 1%Qc true true) demo_cst short_S None (-1)
      with (Ok C, o') => (length C =? 2)%nat &&
        match ceemdan demo_gen demo_std demo_emd (@rev _) (demo_ccfg 2 1%Qc true true) o' short_S (Some [0%Qc]) (-1)
        with (Raise _, _) => true | _ => false end
      | _ => false end = true) by (vm_compute; reflexivity).
    rewrite E in X. apply andb_prop in X as [X1 X2]. split; [apply Nat.eqb_eq; auto|].
    cbn [all_raise]. split; auto.
    destruct (ceemdan _ _ _ _ _ o' _ _ _) as [[C'|e] o2]; [discriminate|]. exists e. reflexivity.
  - exfalso. assert (X : match ceemdan demo_gen demo_std demo_emd (@rev _) (demo_ccfg 2 1%Qc true true) demo_cst short_S None (-1)
      with (Ok _, _) => true | _ => false end = true) by (vm_compute; reflexivity). rewrite E in X. discriminate X.
Qed.
(** The ensemble an object reports need not be the one its results are the means of. *)
Theorem C88_same_run_refuted :
  exists (o o' : eemd_state Qc Z nat) c S e,
  eemd demo_gen fussy c o S None (-1) = (Raise e, o') /\
  eemd_imfs_and_residue o' = eemd_imfs_and_residue o /\
  (exists E r, eemd_imfs_and_residue o = Ok (E, r) /\ E = map (fun p => mean_rows (snd p)) (all_imfs o)) /\
  ensemble_count (all_imfs o) = [2] /\ ensemble_count (all_imfs o') = [1].
Proof.
  exists (noise_seed demo_gen (snd (eemd demo_gen fussy (wide 2) (noise_seed demo_gen fussy_obj 4) (qs [40; 10; 20]) None (-1))) 1).
  eexists. exists (wide 3), (qs [1; 0; 2]), ValueError. vm_compute. repeat split; eauto.
Qed.
Print Assumptions C88_same_run_refuted.
