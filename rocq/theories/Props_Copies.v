(** * Props_Copies: property C102, copies of EEMD and CEEMDAN objects.

    [exec K b p] (Copies.v) runs a program [p] that copies, pickles, seeds and runs objects of one
    kind [K]: [eemd_kind] or [ceemdan_kind].  [single K h w acts] is one object that is never
    copied, with generator and EMD object [h] and stored results [w]. *)
From Verif Require Import PyFacts QcFacts Copies CopiesSpec FailedSpec Spec EemdSpec Demo EmdProofs EmdExact EmdSym
  EemdProofs Props_Eemd Props_Ceemdan CopiesProofs.
From Coq Require Import QArith Qcanon Lia.
Open Scope Z_scope.

(** The two kinds are such that runs ignore what is stored (the hypothesis below). *)
Theorem C102_kinds :
  forall A (HA : Num A) G D (gen : generator A G) (dec : decomposer A D) std emd_of arrival,
  heedless (eemd_kind gen dec) /\ heedless (ceemdan_kind gen std emd_of arrival).
Proof. intros. split; [apply eemd_heedless|apply ceemdan_heedless]. Qed.
Print Assumptions C102_kinds.

(** One object of either kind is the object of Eemd.v or Ceemdan.v: the same results, and the same
    attributes afterwards. *)
Theorem C102_single :
  forall A (HA : Num A) G D (gen : generator A G) (dec : decomposer A D) std emd_of arrival,
  (forall acts o, single (eemd_kind gen dec) (random o, inner o) (E_IMF o, e_residue o, all_imfs o) acts =
     let o' := after_all (noise_seed gen) (eemd gen dec) o acts in
     (returned (noise_seed gen) (eemd gen dec) o acts, ((random o', inner o'), (E_IMF o', e_residue o', all_imfs o')))) /\
  (forall acts o, single (ceemdan_kind gen std emd_of arrival) (c_random o) (C_IMF o, c_residue o) acts =
     let o' := after_all (c_noise_seed gen) (ceemdan gen std emd_of arrival) o acts in
     (returned (c_noise_seed gen) (ceemdan gen std emd_of arrival) o acts, (c_random o', (C_IMF o', c_residue o')))).
Proof. intros. split; intros; [apply single_eemd|apply single_ceemdan]. Qed.
Print Assumptions C102_single.

(** ** Shallow copies are one object as far as results go *)
(** The runs of an object and of all its shallow copies return, in order, what one object returns
    for the same runs and seedings, whichever of them each statement names. *)
Theorem C102_family :
  forall A C H W (K : kind A C H W), heedless K ->
  forall (b : shelf H W) p a h w, sound b -> legal (length (objs b)) p -> nth_error (cells b) a = Some h ->
  let '(l, b') := exec K b p in
  family_results b' a l = fst (single K h w (family_acts b' a p)).
Proof.
  intros A C H W K HK b p a h w Hs Hl Ha. pose proof (family K HK p b a h w Hs Hl Ha) as X.
  destruct (exec K b p). apply X.
Qed.
Print Assumptions C102_family.

(** A shallow copy is of the family of its original, whose results are as of one object in the
    state of the moment of copying. *)
Theorem C102_copy :
  forall A C H W (K : kind A C H W), heedless K ->
  forall (b : shelf H W) i a h w p, sound b -> nth_error (objs b) i = Some (a, w) -> nth_error (cells b) a = Some h ->
  legal (Datatypes.S (length (objs b))) p ->
  let '(l, b') := exec K b (Copy i :: p) in
  relative b' a i = true /\ relative b' a (length (objs b)) = true /\
  family_results b' a l = fst (single K h w (family_acts b' a p)).
Proof.
  intros A C H W K HK b i a h w p Hs Ei Eh Hp.
  assert (Hi : (i < length (objs b))%nat) by (apply nth_error_Some; congruence).
  destruct (exec1_step K b (Copy i) _ Hs eq_refl (conj Hi I)) as (S1 & S2 & S3).
  cbn [exec]. cbn [exec1] in *. rewrite Ei, Eh in *. cbn [snd cells objs] in *.
  set (b1 := MkShelf _ _) in *. assert (Hp1 : legal (length (objs b1)) p) by (unfold b1; cbn [objs]; rewrite S2; exact Hp).
  pose proof (family K HK p b1 a h w S1 Hp1 Eh) as F1. pose proof (exec_cells K p b1 S1 Hp1) as HC.
  destruct (exec K b1 p) as [l b2]. cbn [snd app] in *.
  split; [|split; [|apply F1]].
  - rewrite relative_cell, HC by (cbn; rewrite app_length; cbn; lia). unfold cell_of. cbn [objs b1].
    rewrite nth_error_app1, Ei by exact Hi. cbn. apply Nat.eqb_refl.
  - rewrite relative_cell, HC by (cbn; rewrite app_length; cbn; lia). unfold cell_of. cbn [objs b1].
    rewrite nth_error_app2 by lia. rewrite Nat.sub_diag. cbn. apply Nat.eqb_refl.
Qed.
Print Assumptions C102_copy.

(** ** Deep copies and pickled ones are independent *)
(** From the moment of copying, the original (with its shallow copies) and the new object (with
    its own) each behave as one object in the state of that moment. *)
Theorem C102_clone :
  forall A C H W (K : kind A C H W), heedless K ->
  forall (b : shelf H W) i a h w p, sound b -> nth_error (objs b) i = Some (a, w) -> nth_error (cells b) a = Some h ->
  legal (Datatypes.S (length (objs b))) p ->
  let '(l, b') := exec K b (Clone i :: p) in
  exists a', a' <> a /\ relative b' a i = true /\ relative b' a' (length (objs b)) = true /\
  family_results b' a l = fst (single K h w (family_acts b' a p)) /\
  family_results b' a' l = fst (single K h w (family_acts b' a' p)).
Proof.
  intros A C H W K HK b i a h w p Hs Ei Eh Hp.
  assert (Hi : (i < length (objs b))%nat) by (apply nth_error_Some; congruence).
  assert (Ha : (a < length (cells b))%nat) by (apply nth_error_Some; congruence).
  assert (Hl : legal (length (objs b)) (Clone i :: p)) by (cbn; auto).
  destruct (exec1_step K b (Clone i) _ Hs eq_refl (conj Hi I)) as (S1 & S2 & S3).
  cbn [exec]. cbn [exec1] in *. rewrite Ei, Eh in *. cbn [snd cells objs] in *.
  set (b1 := MkShelf _ _) in *. assert (Hp1 : legal (length (objs b1)) p) by (unfold b1; cbn [objs]; rewrite S2; exact Hp).
  assert (E1 : nth_error (cells b1) a = Some h) by (cbn; rewrite nth_error_app1 by exact Ha; exact Eh).
  assert (E2 : nth_error (cells b1) (length (cells b)) = Some h).
  { cbn. rewrite nth_error_app2 by lia. rewrite Nat.sub_diag. reflexivity. }
  pose proof (family K HK p b1 a h w S1 Hp1 E1) as F1.
  pose proof (family K HK p b1 (length (cells b)) h w S1 Hp1 E2) as F2.
  pose proof (exec_cells K p b1 S1 Hp1) as HC.
  destruct (exec K b1 p) as [l b2]. cbn [snd app] in *. exists (length (cells b)).
  split; [lia|]. split; [|split; [|split; [apply F1|apply F2]]].
  - rewrite relative_cell, HC by (cbn; rewrite app_length; cbn; lia). unfold cell_of. cbn [objs b1].
    rewrite nth_error_app1, Ei by exact Hi. cbn. apply Nat.eqb_refl.
  - rewrite relative_cell, HC by (cbn; rewrite app_length; cbn; lia). unfold cell_of. cbn [objs b1].
    rewrite nth_error_app2 by lia. rewrite Nat.sub_diag. cbn. apply Nat.eqb_refl.
Qed.
Print Assumptions C102_clone.

(** ** Each object stores its own results *)
(** After a run that returned, the object keeps that result until it is run again, whatever is done
    with its copies. *)
Theorem C102_eemd_stored :
  forall G D (gen : generator Qc G) (dec : decomposer Qc D) b i c X T k E l b' p,
  sound b -> legal (length (objs b)) (RunAt i c X T k :: p) -> spares i p ->
  exec (eemd_kind gen dec) b (RunAt i c X T k :: p) = ((i, Ok E) :: l, b') ->
  exists a r d, nth_error (objs b') i = Some (a, (Some E, Some r, d)) /\ ensemble_mean d = Ok E.
Proof.
  intros G D gen dec b i c X T k E l b' p Hs Hl Hsp Ex.
  destruct (exec1_step (eemd_kind gen dec) b (RunAt i c X T k) _ Hs eq_refl (conj (proj1 Hl) I)) as (S1 & S2 & S3).
  destruct (found b i Hs (proj1 Hl)) as (a & h & w & E1 & E2 & Ha).
  cbn [exec exec1] in Ex, S1, S2. rewrite E1, E2 in Ex, S1, S2. cbn [k_run eemd_kind] in Ex, S1, S2.
  destruct (eemd gen dec c _ X T k) as [r o] eqn:Ee. cbn [snd] in S1, S2. set (b1 := MkShelf _ _) in *.
  assert (E3 : nth_error (objs b1) i = Some (a, (E_IMF o, e_residue o, all_imfs o))).
  { cbn. apply set_at_same. apply Hl. }
  pose proof (spared (eemd_kind gen dec) p b1 i a _ S1 ltac:(rewrite S2; apply Hl) Hsp E3) as F.
  destruct (exec (eemd_kind gen dec) b1 p) as [l' b2]. cbn [snd app] in *.
  apply pair_inv in Ex as [Ex <-]. injection Ex as -> _.
  unfold eemd in Ee. destruct (bind _ _) as [[T' scale]|e] in Ee; [|discriminate].
  destruct (if parallel c then _ else _) as [[ts [e|]] st] in Ee; [discriminate|]. cbn [all_imfs] in Ee.
  destruct (mapM _ _) in Ee; [|discriminate]. destruct (ensemble_mean (rename_trend _)) eqn:Em in Ee; [|discriminate].
  destruct (minus_rows _ _) as [rr|] in Ee; [|discriminate]. apply pair_inv in Ee as [Ee <-]. apply ok_inv in Ee. subst.
  exists a, rr. eexists. split; [exact F|]. exact Em.
Qed.
Print Assumptions C102_eemd_stored.

Theorem C102_ceemdan_stored :
  forall G (gen : generator Qc G) std emd_of arrival b i c X T k E l b' p,
  sound b -> legal (length (objs b)) (RunAt i c X T k :: p) -> spares i p ->
  exec (ceemdan_kind gen std emd_of arrival) b (RunAt i c X T k :: p) = ((i, Ok E) :: l, b') ->
  exists a r, nth_error (objs b') i = Some (a, (Some E, Some r)).
Proof.
  intros G gen std emd_of arrival b i c X T k E l b' p Hs Hl Hsp Ex.
  set (K := ceemdan_kind gen std emd_of arrival) in *.
  destruct (exec1_step K b (RunAt i c X T k) _ Hs eq_refl (conj (proj1 Hl) I)) as (S1 & S2 & S3).
  destruct (found b i Hs (proj1 Hl)) as (a & h & w & E1 & E2 & Ha).
  cbn [exec exec1] in Ex, S1, S2. rewrite E1, E2 in Ex, S1, S2. unfold K in Ex, S1, S2. cbn [k_run ceemdan_kind] in Ex, S1, S2. fold K in Ex, S1, S2.
  destruct (ceemdan gen std emd_of arrival c _ X T k) as [r o] eqn:Ee. cbn [snd] in S1, S2. set (b1 := MkShelf _ _) in *.
  assert (E3 : nth_error (objs b1) i = Some (a, (C_IMF o, c_residue o))).
  { cbn. apply set_at_same. apply Hl. }
  pose proof (spared K p b1 i a _ S1 ltac:(rewrite S2; apply Hl) Hsp E3) as F.
  destruct (exec K b1 p) as [l' b2]. cbn [snd app] in *.
  apply pair_inv in Ex as [Ex <-]. injection Ex as -> _.
  unfold ceemdan in Ee. destruct (all_noises _ _ _ _) as [noises g] in Ee.
  destruct (bind _ _) as [R|e] in Ee; [|discriminate]. apply pair_inv in Ee as [Ee <-]. apply ok_inv in Ee. subst.
  exists a. eexists. exact F.
Qed.
Print Assumptions C102_ceemdan_stored.

(** ** Shallow copies are not independent *)
Definition copy_kind := eemd_kind demo_gen demo_dec.
Definition copy_shelf : shelf (Z * emd_state Qc) (option (list (list Qc)) * option (list Qc) * list (Z * list (list Qc))) :=
  MkShelf [(0, emd_init)] [(O, (None, None, []))].
Definition copy_run i := RunAt i (demo_ecfg 1 false false 1) (qs [0; 1; 0; 2; 0]) None (-1) : stmt Qc (eemd_config Qc).

Definition copy_first p := map snd (filter (fun x => Nat.eqb (fst x) 0) (fst (exec copy_kind copy_shelf p))).

(** Running a shallow copy changes what the original returns next. *)
Theorem C102_copy_refuted :
  exists G D (gen : generator Qc G) (dec : decomposer Qc D) b c X, sound b /\
  let run i := RunAt i c X None (-1) in
  let of_first p := map snd (filter (fun x => Nat.eqb (fst x) 0) (fst (exec (eemd_kind gen dec) b p))) in
  exists E E', of_first [Copy 0; run 0%nat] = [Ok E] /\ of_first [Copy 0; run 1%nat; run 0%nat] = [Ok E'] /\ E <> E'.
Proof.
  exists Z, (emd_state Qc), demo_gen, demo_dec, copy_shelf, (demo_ecfg 1 false false 1), (qs [0; 1; 0; 2; 0]). split; [repeat constructor|].
  cbv zeta.
  assert (X : match copy_first [Copy 0; copy_run 0], copy_first [Copy 0; copy_run 1; copy_run 0] with
              | [Ok ((x :: _) :: _)], [Ok ((y :: _) :: _)] => negb (Qeq_bool x y) | _, _ => false end = true) by (vm_compute; reflexivity).
  change (exists E E', copy_first [Copy 0; copy_run 0] = [Ok E] /\ copy_first [Copy 0; copy_run 1; copy_run 0] = [Ok E'] /\ E <> E').
  revert X. generalize (copy_first [Copy 0; copy_run 0]) (copy_first [Copy 0; copy_run 1; copy_run 0]). intros R R' X.
  destruct R as [|[[|[|x u] v]|] []]; try discriminate X.
  destruct R' as [|[[|[|y u'] v']|] []]; try discriminate X.
  eexists _, _. split; [reflexivity|]. split; [reflexivity|]. intros E. injection E as -> _ _.
  rewrite (Qeq_bool_refl y) in X. discriminate.
Qed.
Print Assumptions C102_copy_refuted.

(** Three objects: the original, a shallow copy and a deep copy, run in turn. *)
Definition copy_program : list (stmt Qc (eemd_config Qc)) :=
  [SeedAt 0 2; Copy 0; copy_run 1; Clone 1; copy_run 0; copy_run 2; SeedAt 2 5; copy_run 1].
Example C102_nonvacuous :
  sound copy_shelf /\ legal 1 copy_program /\
  (match exec copy_kind copy_shelf copy_program with
   | (l, b') => family_acts b' 0 copy_program = [Seed 2; Go (demo_ecfg 1 false false 1) (qs [0; 1; 0; 2; 0]) None (-1);
        Go (demo_ecfg 1 false false 1) (qs [0; 1; 0; 2; 0]) None (-1); Go (demo_ecfg 1 false false 1) (qs [0; 1; 0; 2; 0]) None (-1)] /\
       List.length (family_results b' 0 l) = 3%nat /\ List.length (family_results b' 1 l) = 1%nat /\
       forallb (fun x => match snd x with Ok (_ :: _) => true | _ => false end) l = true
   end).
Proof.
  split; [repeat constructor|]. split; [cbn; lia|].
  assert (X : match exec copy_kind copy_shelf copy_program with
              | (l, b') => map (fun o => fst o) (objs b') = [O; O; 1%nat] /\ map fst l = [1; 0; 2; 1]%nat /\
                  forallb (fun x => match snd x with Ok (_ :: _) => true | _ => false end) l = true end)
    by (vm_compute; auto).
  destruct (exec copy_kind copy_shelf copy_program) as [l b']. destruct X as (X1 & X2 & X3).
  destruct b' as [cs [|[o1 w1] [|[o2 w2] [|[o3 w3] []]]]]; try discriminate X1. cbn in X1. injection X1 as -> -> ->.
  destruct l as [|[i1 r1] [|[i2 r2] [|[i3 r3] [|[i4 r4] []]]]]; try discriminate X2. cbn in X2. injection X2 as -> -> -> ->.
  repeat split; try reflexivity. exact X3.
Qed.
