(** * Props_Stats: property C69, the ensemble statistics of EEMD.

    [sized], [shapely], [noise_of], [noisy], [quiet] are defined in EemdSpec.v, [is_mean] in Spec.v;
    [by_order], [numbered], [is_std], [root_like] in StatsSpec.v.  [all_imfs o'] is the dictionary
    the property all_imfs returns, [ensemble_count], [ensemble_mean], [ensemble_std] are the methods. *)
From Verif Require Import PyFacts QcFacts Eemd EemdStats Spec EemdSpec StatsSpec EemdExact StatsProofs Demo Props_Eemd.
From Coq Require Import QArith Qcanon.
Open Scope Z_scope.

(** all_imfs maps k to the k-th imfs of the trials that have one, in the order of the trials. *)
Theorem C69_members :
  forall G D (gen : generator Qc G) (dec : decomposer Qc D), sized gen ->
  forall c o S T k E o', separate_trends c = false ->
  eemd gen dec c o S T k = (Ok E, o') ->
  exists T' w noises rs, spread S w /\
    match T with Some t => T' = t | None => timeline (length S) = Ok T' end /\
    length noises = Z.to_nat (trials c) /\ length rs = Z.to_nat (trials c) /\
    noise_of gen c o o' S w noises /\
    (forall i r, nth_error rs i = Some r -> exists X d d', noisy S (nth i noises []) X /\ run dec d X T' k = (Ok r, d')) /\
    all_imfs o' = numbered (by_order rs).
Proof. exact @eemd_members. Qed.
Print Assumptions C69_members.

(** With separate_trends the last key holds the trends of all trials. *)
Theorem C69_members_trends :
  forall G D (gen : generator Qc G) (dec : decomposer Qc D), sized gen ->
  forall c o S T k E o', separate_trends c = true -> 0 < trials c ->
  eemd gen dec c o S T k = (Ok E, o') ->
  exists T' w noises rs, spread S w /\
    match T with Some t => T' = t | None => timeline (length S) = Ok T' end /\
    length noises = Z.to_nat (trials c) /\ length rs = Z.to_nat (trials c) /\
    noise_of gen c o o' S w noises /\
    (forall i x, nth_error rs i = Some x -> exists X d d' all,
       noisy S (nth i noises []) X /\ run dec d X T' k = (Ok all, d') /\ trend_of dec d' = Ok x) /\
    all_imfs o' = numbered (by_order (map fst rs) ++ [map snd rs]).
Proof. exact @eemd_members_trends. Qed.
Print Assumptions C69_members_trends.

(** After a run, the statistics are the size, the mean and the standard deviation of the entries of
    all_imfs, and ensemble_mean repeats what eemd returned. *)
Theorem C69_statistics :
  forall G D (gen : generator Qc G) (dec : decomposer Qc D), sized gen -> shapely dec ->
  forall sqrt c o S T k E o', eemd gen dec c o S T k = (Ok E, o') ->
  map fst (all_imfs o') = zseq 0 (length E) /\
  ensemble_mean (all_imfs o') = Ok E /\
  length (ensemble_count (all_imfs o')) = length E /\
  exists sd, ensemble_std sqrt (all_imfs o') = Ok sd /\ length sd = length E /\
  forall j rows, nth_error (map snd (all_imfs o')) j = Some rows ->
    rows <> [] /\ shaped (length S) rows /\
    nth j (ensemble_count (all_imfs o')) 0 = Z.of_nat (length rows) /\
    is_mean (length S) rows (nth j E []) /\
    is_std sqrt (length S) rows (nth j sd []).
Proof. exact @eemd_statistics. Qed.
Print Assumptions C69_statistics.

(** A standard deviation is zero exactly where all members of the ensemble agree. *)
Theorem C69_zero_deviation :
  forall sqrt n rows v i, root_like sqrt -> is_std sqrt n rows v -> (i < n)%nat ->
  nth i v 0%Qc = 0%Qc <-> (forall r r', In r rows -> In r' rows -> nth i r 0%Qc = nth i r' 0%Qc).
Proof. exact std_zero. Qed.
Print Assumptions C69_zero_deviation.

(** Without noise it is zero everywhere. *)
Theorem C69_no_noise :
  forall G (gen : generator Qc G) spl fuel cfg sqrt c o S T k E o' sd,
  sized gen -> quiet gen -> root_like sqrt -> separate_trends c = false ->
  (noise_width c = 0%Qc \/ forall x y, In x S -> In y S -> x = y) ->
  eemd gen (emd_decomposer spl fuel cfg) c o S T k = (Ok E, o') ->
  ensemble_std sqrt (all_imfs o') = Ok sd ->
  length sd = length E /\ forall v, In v sd -> v = repeat 0%Qc (length S).
Proof. exact @eemd_quiet_std. Qed.
Print Assumptions C69_no_noise.

Example C69_root : root_like (fun q => q).
Proof. intros q _. tauto. Qed.
(** Three trials: all have two rows, one has three; the spread is not zero. *)
Example C69_run :
  match eemd demo_gen demo_dec (demo_ecfg 3 false false 1) demo_obj short_S None (-1) with
  | (Ok E, o') => match ensemble_std (fun q => q) (all_imfs o') with
                  | Ok [s1; s2; s3] => forallb (fun x => Qc_eq_bool x 0) s3 && negb (forallb (fun x => Qc_eq_bool x 0) s1)
                  | _ => false end
  | _ => false end = true.
Proof. vm_compute. reflexivity. Qed.
Example C69_run_trends :
  match eemd demo_gen demo_dec (demo_ecfg 3 true false 1) demo_obj short_S None (-1) with
  | (Ok E, o') => map fst (all_imfs o') = [0; 1; 2] /\ ensemble_count (all_imfs o') = [3; 1; 3]
  | _ => False end.
Proof. vm_compute. repeat split. Qed.
Example C69_run_quiet :
  match eemd demo_gen demo_dec (MkECfg 3 0%Qc false Normal true 2) demo_obj short_S None (-1) with
  | (Ok E, _) => length E = 2%nat | _ => False end.
Proof. vm_compute. reflexivity. Qed.

(** A run that raises leaves the imfs and the residue of the run before, and a parallel one also the
    ensemble ... *)
Theorem C69_failed_run :
  forall G D (gen : generator Qc G) (dec : decomposer Qc D), sized gen -> shapely dec ->
  forall c o S T k e o', eemd gen dec c o S T k = (Raise e, o') ->
  eemd_imfs_and_residue o' = eemd_imfs_and_residue o /\ (parallel c = true -> all_imfs o' = all_imfs o).
Proof. exact @eemd_raises. Qed.
Print Assumptions C69_failed_run.

(** ... but after a serial run that raises, the ensemble is that of the failed run: here it is empty
    while get_imfs_and_residue still hands out the earlier result. *)
Theorem C69_failed_serial_refuted :
  exists (gen : generator Qc Z) (dec : decomposer Qc (emd_state Qc)) o S c c' E r o1 e o2,
  sized gen /\ shapely dec /\ parallel c = false /\
  eemd gen dec c o S None (-1) = (Ok E, o1) /\ ensemble_mean (all_imfs o1) = Ok E /\ E <> [] /\
  eemd gen dec c' o1 S None (-1) = (Raise e, o2) /\
  eemd_imfs_and_residue o2 = Ok (E, r) /\ ensemble_mean (all_imfs o2) = Ok [].
Proof.
  pose (c := demo_ecfg 3 false false 1). pose (c' := MkECfg 3 (noise_width c) false OtherNoise false 1).
  destruct (eemd demo_gen demo_dec c demo_obj short_S None (-1)) as [r1 o1] eqn:E1.
  assert (G : match fst (eemd demo_gen demo_dec c demo_obj short_S None (-1)) with Ok (_ :: _) => true | _ => false end = true)
    by (vm_compute; reflexivity).
  rewrite E1 in G. cbn [fst] in G. destruct r1 as [[|x E]|]; try discriminate G.
  pose proof (emd_shapely lin_spl 10 demo_fixe) as Hsh.
  assert (HS : short_S <> []) by discriminate.
  destruct (other_noise demo_gen demo_dec c' o1 short_S (-1) eq_refl eq_refl eq_refl HS) as (o2 & E2 & A2).
  destruct (C69_failed_run _ _ _ _ demo_sized Hsh _ _ _ _ _ _ _ E2) as [F _].
  destruct (C29_components_and_residue _ _ _ _ demo_sized Hsh _ _ _ _ _ _ _ E1) as (r & R & _).
  destruct (C69_statistics _ _ _ _ demo_sized Hsh (fun q => q) _ _ _ _ _ _ _ E1) as (_ & M & _).
  exists demo_gen, demo_dec, demo_obj, short_S, c, c', (x :: E), r, o1, ValueError, o2.
  split; [exact demo_sized|]. split; [exact Hsh|]. split; [reflexivity|]. split; [exact E1|]. split; [exact M|].
  split; [discriminate|]. split; [exact E2|]. rewrite F, A2. split; [exact R|reflexivity].
Qed.
Print Assumptions C69_failed_serial_refuted.
