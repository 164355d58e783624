(** * C111: a small change never loses the first component, so neither EEMD nor CEEMDAN with little noise does.

    Straight-line envelopes and a fixed number n of sifts per component.  [close], [robust] and [doubled] are those
    of C107 (NearSpec.v); [doubled n e] is e doubled n times. *)
From Verif Require Import PyFacts QcFacts Emd Eemd Ceemdan Spec EemdSpec CeemdanSpec Demo EmdProofs EemdExact Kinds NearSpec NearProofs FaintSpec FaintProofs CalmSpec CalmProofs Props_Eemd Props_Ceemdan Props_Near Props_Faint.
From Coq Require Import QArith Qcanon String List Lia.
Local Notation length := List.length.
Open Scope Z_scope.

(** If the signal has a component, so has the changed signal, and the two first components are near. *)
Theorem C111_kept :
  forall k c n fuel fuel' e x x' mi mi' o o',
  extrema_detection c = Simple -> 1 <= nbsym c -> k = Linear \/ k = Slinear -> parse_kind (spline_kind c) = Some k ->
  FIXE c = Z.of_nat n -> (0 < n)%nat -> FIXE c < MAX_ITERATION c ->
  close e x x' -> robust c n e x ->
  emd scipy_spl fuel c x None mi = Ok o -> emd scipy_spl fuel' c x' None mi' = Ok o' ->
  imfs o <> [] -> imfs o' <> [] /\ close (doubled n e) (nth 0 (imfs o) []) (nth 0 (imfs o') []).
Proof. exact (fun k c n fuel fuel' e x x' mi mi' o o' => first_follows k c c n fuel fuel' e x x' mi mi' o o' (alike_refl c)). Qed.
Print Assumptions C111_kept.

(** EEMD: every trial contributes to the first component, and its mean is near that of the signal itself. *)
Theorem C111_eemd :
  forall G (gen : generator Qc G) k cfg n fuel fuel' e c o S T T' mi mi' E o' r,
  sized gen -> (forall w, spread S w -> faint gen (noise_kind c) (noise_width c * w)%Qc (length S) e) -> (0 <= e)%Qc ->
  0 < trials c -> separate_trends c = false ->
  extrema_detection cfg = Simple -> 1 <= nbsym cfg -> k = Linear \/ k = Slinear -> parse_kind (spline_kind cfg) = Some k ->
  FIXE cfg = Z.of_nat n -> (0 < n)%nat -> FIXE cfg < MAX_ITERATION cfg -> robust cfg n e S ->
  emd scipy_spl fuel cfg S T mi = Ok r -> eemd gen (emd_decomposer scipy_spl fuel' cfg) c o S T' mi' = (Ok E, o') ->
  imfs r <> [] -> nth 0 (ensemble_count (all_imfs o')) 0 = trials c /\ close (doubled n e) (nth 0 (imfs r) []) (nth 0 E []).
Proof. exact @ensemble_first. Qed.
Print Assumptions C111_eemd.

(** CEEMDAN: the bound is epsilon times the standard deviation of the signal times the largest sample of the
    first noise modes, doubled n times. *)
Theorem C111_ceemdan :
  forall G (gen : generator Qc G) std k cfg n fuel fuel' arrival c o S T T' mi mi' C o' r b,
  sized gen -> reorders arrival -> 0 < c_trials c -> (c_parallel c = true -> 1 <= c_processes c) -> (0 < std S)%Qc -> (0 <= epsilon c)%Qc ->
  calm gen std (emd_fun scipy_spl fuel' cfg) c o (length S) b ->
  extrema_detection cfg = Simple -> 1 <= nbsym cfg -> k = Linear \/ k = Slinear -> parse_kind (spline_kind cfg) = Some k ->
  FIXE cfg = Z.of_nat n -> (0 < n)%nat -> FIXE cfg < MAX_ITERATION cfg -> robust cfg n (std S * (epsilon c * b))%Qc S ->
  emd scipy_spl fuel cfg S T mi = Ok r -> imfs r <> [] ->
  ceemdan gen std (emd_fun scipy_spl fuel' cfg) arrival c o S T' mi' = (Ok C, o') ->
  close (doubled n (std S * (epsilon c * b))%Qc) (nth 0 (imfs r) []) (nth 0 C []).
Proof. exact @ceemdan_first. Qed.
Print Assumptions C111_ceemdan.

(** Some b always serves: the noise is drawn once, from the generator's state. *)
Theorem C111_bound :
  forall G (gen : generator Qc G) std emd_of c o n, exists b, (0 < b)%Qc /\ calm gen std emd_of c o n b.
Proof. exact @calm_ex. Qed.
Print Assumptions C111_bound.

(** So, as epsilon goes to zero, CEEMDAN's first component tends to EMD's, whatever its other settings. *)
Theorem C111_limit :
  forall G (gen : generator Qc G) std k cfg n fuel fuel' c o S T mi r e d,
  sized gen -> 0 < c_trials c -> (0 < std S)%Qc ->
  extrema_detection cfg = Simple -> 1 <= nbsym cfg -> k = Linear \/ k = Slinear -> parse_kind (spline_kind cfg) = Some k ->
  FIXE cfg = Z.of_nat n -> (0 < n)%nat -> FIXE cfg < MAX_ITERATION cfg -> (0 < e)%Qc -> robust cfg n e S ->
  emd scipy_spl fuel cfg S T mi = Ok r -> imfs r <> [] -> (0 < d)%Qc ->
  exists eps0, (0 < eps0)%Qc /\
  forall c' arrival T' mi' C o', reorders arrival -> (c_parallel c' = true -> 1 <= c_processes c') ->
  c_trials c' = c_trials c -> c_noise_kind c' = c_noise_kind c -> noise_scale c' = noise_scale c -> beta_progress c' = beta_progress c ->
  (0 <= epsilon c')%Qc -> (epsilon c' <= eps0)%Qc ->
  ceemdan gen std (emd_fun scipy_spl fuel' cfg) arrival c' o S T' mi' = (Ok C, o') ->
  close d (nth 0 (imfs r) []) (nth 0 C []).
Proof. exact @ceemdan_limit. Qed.
Print Assumptions C111_limit.

(** ** Example: two trials *)
Definition calm_cfg : ceemdan_config Qc := MkCCfg 2 (nlit 1 2000) (nlit 1 7) (nlit 1 100) (nlit 5 100) false Normal 3 false 2.
Definition calm_emd := emd_fun scipy_spl 10 (near_cfg 1).
Definition calm_run := ceemdan demo_gen demo_std calm_emd (@rev _) calm_cfg demo_cst parts_x None (-1).
Definition tame (b : Qc) (noise : list Qc) : bool :=
  match calm_emd noise None (-1) with
  | Ok D => forallb (fun x => Qc_leb (- b)%Qc x && Qc_leb x b) (nth 0 D []) | Raise _ => true end.
Definition calm_noise : list Qc := fst (normal demo_gen 0 (nlit 1 7) 20).
Lemma calm_demo : calm demo_gen demo_std calm_emd calm_cfg demo_cst 10 1.
Proof.
  intros noises g' HD HS noise M Hin (D & ED & ->) v Hv.
  assert (EV : concat noises = calm_noise).
  { cbn [draws calm_cfg c_noise_kind noise_scale c_trials demo_cst c_random] in HD. unfold calm_noise.
    change (Z.to_nat 2 * 10)%nat with 20%nat in HD. rewrite HD. reflexivity. }
  destruct (row_of_concat 10 noises noise HS Hin) as (j & _ & Ej).
  assert (L : length (concat noises) = 20%nat) by (rewrite EV; reflexivity).
  assert (HN : noise = firstn 10 calm_noise \/ noise = skipn 10 calm_noise).
  { unfold shaped in HS. destruct noises as [|a [|u [|w ns]]]; cbn [concat] in L; rewrite ?app_length in L.
    - destruct Hin.
    - inversion HS; subst. cbn in L. lia.
    - inversion HS as [|? ? La HS1]; subst. inversion HS1 as [|? ? Lu _]; subst. cbn [concat] in EV. rewrite app_nil_r in EV.
      destruct Hin as [<-|[<-|[]]]; rewrite <- EV.
      + left. rewrite <- La, firstn_app, firstn_all, Nat.sub_diag. cbn [firstn]. rewrite app_nil_r. reflexivity.
      + right. rewrite <- La, skipn_app, skipn_all, Nat.sub_diag. reflexivity.
    - inversion HS as [|? ? La HS1]; subst. inversion HS1 as [|? ? Lu HS2]; subst. inversion HS2 as [|? ? Lw _]; subst. lia. }
  assert (T : tame 1 noise = true) by (destruct HN as [->| ->]; vm_compute; reflexivity).
  unfold tame in T. rewrite ED in T. rewrite forallb_forall in T. specialize (T v Hv). apply Bool.andb_true_iff in T as [T1 T2].
  split; apply Qc_leb_le; auto.
Qed.
Definition calm_ok (w : res (list (list Qc)) * ceemdan_state Qc Z) : bool := match fst w with Ok _ => true | Raise _ => false end.
Lemma calm_ok_spec w : calm_ok w = true -> exists C o', w = (Ok C, o').
Proof. unfold calm_ok. destruct w as [[C|x] o']; cbn [fst]; [eauto|discriminate]. Qed.
Example C111_nonvacuous : reorders (@rev _) /\ (0 < demo_std parts_x)%Qc /\ calm demo_gen demo_std calm_emd calm_cfg demo_cst 10 1 /\
  robust (near_cfg 1) 1 (demo_std parts_x * (epsilon calm_cfg * 1))%Qc parts_x /\
  exists r C o', parts_run parts_x = Ok r /\ imfs r <> [] /\ calm_run = (Ok C, o') /\
    close (Q2Qc (2 # 100)) (nth 0 (imfs r) []) (nth 0 C []).
Proof.
  assert (HA : reorders (@rev (list (list Qc)))) by (intros l; apply Permutation.Permutation_rev).
  split; [exact HA|]. assert (S0 : (0 < demo_std parts_x)%Qc) by (vm_compute; reflexivity). split; [exact S0|]. split; [exact calm_demo|].
  assert (B : (demo_std parts_x * (epsilon calm_cfg * 1) <= hundredth)%Qc) by (vm_compute; intros C; discriminate).
  assert (R : robust (near_cfg 1) 1 (demo_std parts_x * (epsilon calm_cfg * 1))%Qc parts_x).
  { apply (robust_mono _ _ hundredth); auto. exact (proj1 near_robust_parts). }
  split; [exact R|].
  destruct (parts_two_spec parts_x) as (r & Er & N); [vm_compute; reflexivity|].
  assert (Nr : imfs r <> []) by (intros Q; rewrite Q in N; cbn in N; lia).
  destruct (calm_ok_spec calm_run) as (C & o' & EC); [vm_compute; reflexivity|].
  exists r, C, o'. split; [exact Er|]. split; [exact Nr|]. split; [exact EC|].
  apply (close_mono (doubled 1 (demo_std parts_x * (epsilon calm_cfg * 1))%Qc)); [vm_compute; intros Q; discriminate|].
  exact (C111_ceemdan Z demo_gen demo_std Linear (near_cfg 1) 1 10 10 (@rev _) calm_cfg demo_cst parts_x None None (-1) (-1) C o' r 1
    demo_sized HA ltac:(cbn; lia) ltac:(discriminate) S0 ltac:(vm_compute; intros Q; discriminate) calm_demo eq_refl ltac:(cbn; lia)
    (or_introl eq_refl) eq_refl eq_refl ltac:(lia) ltac:(cbn; lia) R Er Nr EC).
Qed.

(** ** What does not hold: in a signal with equal neighbours an epsilon of 1/20000 can bring out a first component
    of height 2 although EMD finds none. *)
Definition dip_ccfg : ceemdan_config Qc := MkCCfg 1 (nlit 1 20000) 1%Qc (nlit 1 100) (nlit 5 100) false Uniform 3 false 2.
Definition dip_ceemdan := ceemdan dip_gen demo_std calm_emd (@rev _) dip_ccfg demo_cst steps_x None 1.
Definition dip_tall (w : res (list (list Qc)) * ceemdan_state Qc Z) : bool :=
  match fst w with Ok C => Qc_leb (Qc_ofZ 2) (nth 1 (nth 0 C []) 0%Qc) | Raise _ => false end.
Lemma dip_tall_spec w : dip_tall w = true -> exists C o', w = (Ok C, o') /\ (Qc_ofZ 2 <= nth 1 (nth 0 C []) 0)%Qc.
Proof.
  unfold dip_tall. destruct w as [[C|x] o']; cbn [fst]; [|discriminate]. intros H. exists C, o'. split; auto. apply Qc_leb_le; auto.
Qed.
Theorem C111_unseparated_refuted :
  exists (gen : generator Qc Z) std c o S r C o', sized gen /\ confined gen /\ (0 < std S)%Qc /\
  c_noise_kind c = Uniform /\ noise_scale c = 1%Qc /\ epsilon c = nlit 1 20000 /\
  emd scipy_spl 10 (near_cfg 1) S None 1 = Ok r /\ imfs r = [] /\
  ceemdan gen std (emd_fun scipy_spl 10 (near_cfg 1)) (@rev _) c o S None 1 = (Ok C, o') /\
  (Qc_ofZ 2 <= nth 1 (nth 0 C []) 0)%Qc.
Proof.
  destruct (steps_none_spec steps_x) as (r & R & N); [vm_compute; reflexivity|].
  destruct (dip_tall_spec dip_ceemdan) as (C & o' & EC & HV); [vm_compute; reflexivity|].
  exists dip_gen, demo_std, dip_ccfg, demo_cst, steps_x, r, C, o'.
  split. { intros g s n. cbn. rewrite repeat_length. split; auto. intros. rewrite map_length, zseq_length. auto. }
  split; [exact dip_confined|]. split; [vm_compute; reflexivity|]. do 3 (split; [reflexivity|]).
  split; [exact R|]. split; [exact N|]. split; [exact EC|exact HV].
Qed.
Print Assumptions C111_unseparated_refuted.
