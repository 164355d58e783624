(** * Props_Ask: property C100, what EEMD's ensemble queries say over any history.

    EemdAsk.v models the dictionary [_all_imfs] itself; [ask_count], [ask_mean], [ask_std] are
    [ensemble_count], [ensemble_mean], [ensemble_std], and [ask_order e k] is [all_imfs[k]].  A
    program ([deed], in AskSpec.v) seeds the object, runs it and reads orders of the ensemble. *)
From Verif Require Import PyFacts QcFacts Eemd EemdStats EemdAsk Spec EemdSpec StatsSpec FailedSpec AskSpec Demo
  EmdProofs EmdExact EemdProofs EemdExact Props_Eemd Props_Failed AskProofs.
From Coq Require Import QArith Qcanon.
Open Scope Z_scope.

(** ** Looking at the ensemble never changes what a run returns *)
(** Nor what [get_imfs_and_residue] reports, the generator or the object [self.EMD]. *)
Theorem C100_looking :
  forall A (HA : Num A) G D (gen : generator A G) (dec : decomposer A D) l (o : eemd_object A G D),
  let with_looks := all_did gen dec o l in
  let without := after_all (noise_seed gen) (eemd gen dec) (seen o) (blind l) in
  (o_random with_looks = random without /\ o_inner with_looks = inner without /\
   o_E_IMF with_looks = E_IMF without /\ o_residue with_looks = e_residue without) /\
  forall c S T k, fst (ask_eemd gen dec c with_looks S T k) = fst (eemd gen dec c without S T k).
Proof.
  intros A HA G D gen dec l o. cbv zeta. split; [apply looking_blind; reflexivity|].
  intros. apply looking_result.
Qed.
Print Assumptions C100_looking.

(** ** After a run that returned [E] *)
(** Until the next run, [ensemble_mean] is [E]; order [i] is an array whose mean and deviation are
    the [i]-th rows of [ensemble_mean] and [ensemble_std] and whose length is the [i]-th count; any
    other order raises KeyError and nothing changes. *)
Theorem C100_after_end :
  forall G D (gen : generator Qc G) (dec : decomposer Qc D), sized gen -> shapely dec ->
  forall sqrt o before c S T k E o' more,
  ask_eemd gen dec c (all_did gen dec o before) S T k = (Ok E, o') -> idle more ->
  let e := o_ens (all_did gen dec o' more) in
  ask_mean e = Ok E /\ length (ask_count e) = length E /\
  (exists V, ask_std sqrt e = Ok V /\ length V = length E /\
   forall i m, nth_error E i = Some m -> exists l v, ask_order e (Z.of_nat i) = (Ok (Stacked l), e) /\
     nth_error V i = Some v /\ nth_error (ask_count e) i = Some (zlen l) /\
     is_mean (length S) l m /\ is_std sqrt (length S) l v) /\
  forall j, j < 0 \/ zlen E <= j -> ask_order e j = (Raise KeyError, e).
Proof. intros G D gen dec Hsz Hsh sqrt o before c S T k E o' more. apply after_end; auto. Qed.
Print Assumptions C100_after_end.

(** ** After a run that raised *)
(** Either nothing changed, or the run was serial and the ensemble is left half done: the counts
    can be asked for, [ensemble_mean] and [ensemble_std] raise AttributeError unless there is no
    order at all, and reading a missing order makes an empty one. *)
Theorem C100_after_raise :
  forall G D (gen : generator Qc G) (dec : decomposer Qc D), sized gen -> shapely dec ->
  forall o before c S T k e o' more,
  ask_eemd gen dec c (all_did gen dec o before) S T k = (Raise e, o') -> idle more ->
  o' = all_did gen dec o before \/
  parallel c = false /\
  let en := o_ens (all_did gen dec o' more) in
  (ask_count en = [] -> ask_mean en = Ok [] /\ forall sqrt, ask_std sqrt en = Ok []) /\
  (ask_count en <> [] -> ask_mean en = Raise AttributeError /\ forall sqrt, ask_std sqrt en = Raise AttributeError) /\
  (forall j, (exists l, ask_order en j = (Ok (Listed l), en)) \/
     exists en', ask_order en j = (Ok (Listed []), en') /\ ask_count en' = ask_count en ++ [0] /\
       ask_mean en' = Raise AttributeError).
Proof. intros G D gen dec Hsz Hsh o before c S T k e o' more. apply after_raise; auto. Qed.
Print Assumptions C100_after_raise.

(** ** At any time of any program on a new object *)
(** The two statistics both return, one row per order, or both raise AttributeError. *)
Theorem C100_any_time :
  forall G D (gen : generator Qc G) (dec : decomposer Qc D), sized gen -> shapely dec ->
  forall (g : G) (d : D) l sqrt,
  let e := o_ens (all_did gen dec (new_object g d) l) in
  (exists M V, ask_mean e = Ok M /\ ask_std sqrt e = Ok V /\
     length M = length (ask_count e) /\ length V = length (ask_count e)) \/
  (ask_count e <> [] /\ ask_mean e = Raise AttributeError /\ ask_std sqrt e = Raise AttributeError).
Proof. exact @any_time. Qed.
Print Assumptions C100_any_time.

(** ** A new object *)
(** Before the first run there are no orders, and reading one raises KeyError. *)
Theorem C100_new :
  forall A (HA : Num A) G D (gen : generator A G) (dec : decomposer A D) (g : G) (d : D) more, idle more ->
  let e := o_ens (all_did gen dec (new_object g d) more) in
  ask_count e = [] /\ ask_mean e = Ok [] /\ (forall sqrt, ask_std sqrt e = Ok []) /\
  forall j, ask_order e j = (Raise KeyError, e).
Proof.
  intros A HA G D gen dec g d more Hi. cbv zeta.
  assert (HI : forall o : eemd_object A G D, o_ens o = MkEns false [] -> o_ens (all_did gen dec o more) = MkEns false []).
  { induction more as [|x more IH]; intros o Ho; [exact Ho|].
    inversion Hi; subst. cbn. apply IH; [assumption|].
    destruct x; cbn in *; try contradiction; [exact Ho|]. rewrite Ho. reflexivity. }
  pose proof (HI (new_object g d) eq_refl) as He.
  rewrite He. repeat split.
Qed.
Print Assumptions C100_new.

(** The rows behind the queries are those of the value model of Eemd.v, run by run, so that what
    C69 and C88 say about them holds here. *)
Theorem C100_same_rows :
  forall A (HA : Num A) G D (gen : generator A G) (dec : decomposer A D) c (o : eemd_object A G D) S T k,
  fst (ask_eemd gen dec c o S T k) = fst (eemd gen dec c (seen o) S T k) /\
  seen (snd (ask_eemd gen dec c o S T k)) = snd (eemd gen dec c (seen o) S T k).
Proof. exact @ask_eemd_seen. Qed.
Print Assumptions C100_same_rows.

(** ** What does not hold *)
(** The program of C88's example on a new object: a run that ends, then one that raises in its
    second trial. *)
Definition ask_good : deed (eemd_config Qc) Qc := Runs (wide 2) (qs [40; 10; 20]) None (-1).
Definition ask_bad : deed (eemd_config Qc) Qc := Runs (wide 3) (qs [1; 0; 2]) None (-1).
Definition ask_new : eemd_object Qc Z nat := new_object 0 O.

(** An object with results need not have an ensemble mean. *)
Theorem C100_mean_refuted :
  exists l : list (deed (eemd_config Qc) Qc),
  let o := all_did demo_gen fussy ask_new l in
  (exists E r, o_E_IMF o = Some E /\ o_residue o = Some r /\ length E = 1%nat) /\
  ask_count (o_ens o) = [1] /\ ask_mean (o_ens o) = Raise AttributeError.
Proof.
  exists [Seeds 4; ask_good; Seeds 1; ask_bad]. vm_compute. split; [do 2 eexists; repeat split|split; reflexivity].
Qed.
Print Assumptions C100_mean_refuted.

(** Reading the ensemble can change it: the count, and with it the statistics. *)
Theorem C100_reading_refuted :
  exists (l : list (deed (eemd_config Qc) Qc)) k,
  let o := all_did demo_gen fussy ask_new l in
  let o' := did demo_gen fussy o (Looks k) in
  ask_count (o_ens o) = [] /\ ask_mean (o_ens o) = Ok [] /\
  ask_count (o_ens o') = [0] /\ ask_mean (o_ens o') = Raise AttributeError.
Proof.
  exists [Runs (wide 3) (qs [-40; -10; -20]) None (-1)], 0. vm_compute. repeat split.
Qed.
Print Assumptions C100_reading_refuted.

(** ** Examples *)
(** The hypotheses are met: a program with a run that ends, looks and a run that raises. *)
Example C100_nonvacuous :
  sized demo_gen /\ shapely fussy /\
  (exists E o', ask_eemd demo_gen fussy (wide 2) (all_did demo_gen fussy ask_new [Seeds 4; Looks 3]) (qs [40; 10; 20]) None (-1)
     = (Ok E, o') /\ length E = 1%nat /\ idle (A := Qc) [Looks 0; Looks 5; Seeds 2]) /\
  exists o', ask_eemd demo_gen fussy (wide 3) (all_did demo_gen fussy ask_new [Seeds 4; ask_good; Seeds 1])
     (qs [1; 0; 2]) None (-1) = (Raise ValueError, o') /\
     o_ens o' <> o_ens (all_did demo_gen fussy ask_new [Seeds 4; ask_good; Seeds 1]).
Proof.
  split; [exact demo_sized|]. split; [exact fussy_shapely|]. split.
  - do 2 eexists. split; [vm_compute; reflexivity|]. split; [reflexivity|]. repeat constructor.
  - eexists. split; [vm_compute; reflexivity|]. vm_compute. discriminate.
Qed.
